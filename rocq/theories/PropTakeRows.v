(** Property C41: taking rows from a chunked file. *)
From Coq Require Import Sorted.
From Verif Require Import Base Spec SearchModel SearchProofs Arr ArrRead ArrWf ArrReadProofs ArrSearchProofs ArrSlice ArrSliceProofs ArrSliceMain
  ArrOps OpsBase OpsChunked PropOps Ipc PropIpc Layout PropFileX TakeRows.

(** * Lists *)
Lemma incr_ssorted l : incr true l = true <-> ssortedZ l.
Proof.
  induction l as [|x r IH]; [cbn; tauto|]. destruct r as [|y r]; [cbn; tauto|].
  change (incr true (x :: y :: r)) with ((x <? y)%Z && incr true (y :: r)). rewrite andb_true_iff, IH.
  cbn [ssortedZ]. split.
  - intros [H1 [H2 H3]]. apply Z.ltb_lt in H1. split; [|tauto]. intros z [<-|Hz]; [exact H1|]. specialize (H2 z Hz). lia.
  - intros [H1 H2]. split; [apply Z.ltb_lt, H1; left; reflexivity|exact H2].
Qed.
Lemma incr_sorted l : incr false l = true <-> sortedZ l.
Proof.
  induction l as [|x r IH]; [cbn; tauto|]. destruct r as [|y r]; [cbn; tauto|].
  change (incr false (x :: y :: r)) with ((x <=? y)%Z && incr false (y :: r)). rewrite andb_true_iff, IH.
  cbn [sortedZ]. split.
  - intros [H1 [H2 H3]]. apply Z.leb_le in H1. split; [|tauto]. intros z [<-|Hz]; [exact H1|]. specialize (H2 z Hz). lia.
  - intros [H1 H2]. split; [apply Z.leb_le, H1; left; reflexivity|exact H2].
Qed.

Lemma filter_true {A} (q : A -> bool) l : (forall x, In x l -> q x = true) -> filter q l = l.
Proof. induction l as [|x r IH]; intros H; [reflexivity|]. cbn [filter]. rewrite H by (left; reflexivity). f_equal. apply IH. intros y Hy. apply H. right; exact Hy. Qed.
Lemma filter_false {A} (q : A -> bool) l : (forall x, In x l -> q x = false) -> filter q l = [].
Proof. induction l as [|x r IH]; intros H; [reflexivity|]. cbn [filter]. rewrite H by (left; reflexivity). apply IH. intros y Hy. apply H. right; exact Hy. Qed.
Lemma filter_filter {A} (q1 q2 : A -> bool) l : filter q2 (filter q1 l) = filter (fun x => q1 x && q2 x) l.
Proof. induction l as [|x r IH]; [reflexivity|]. cbn [filter]. destruct (q1 x); cbn [andb filter]; [destruct (q2 x); rewrite IH; reflexivity|exact IH]. Qed.
Lemma filter_ext_in_ {A} (f g : A -> bool) l : (forall x, In x l -> f x = g x) -> filter f l = filter g l.
Proof. induction l as [|x r IH]; intros H; [reflexivity|]. cbn [filter]. rewrite (H x) by (left; reflexivity). rewrite IH by (intros; apply H; right; assumption). reflexivity. Qed.
Lemma filter_sub {A} (q : A -> bool) l : length (filter q l) <= length l.
Proof. induction l as [|x r IH]; [auto|]. cbn [filter]. destruct (q x); cbn [length]; lia. Qed.

(** A test that holds up to a point of a sorted list splits it there. *)
Definition down (q : Z -> bool) : Prop := forall x y, (x <= y)%Z -> q y = true -> q x = true.
Lemma firstn_count q l : down q -> sortedZ l -> firstn (count q l) l = filter q l.
Proof.
  intros D. unfold count. induction l as [|x r IH]; intros Hs; [reflexivity|]. cbn [sortedZ] in Hs. destruct Hs as [H1 H2]. cbn [filter].
  destruct (q x) eqn:E; [cbn [length firstn]; rewrite IH by exact H2; reflexivity|].
  rewrite filter_false; [reflexivity|]. intros y Hy. destruct (q y) eqn:Ey; [|reflexivity]. rewrite (D x y (H1 y Hy) Ey) in E. discriminate E.
Qed.
Lemma skipn_count q l : down q -> sortedZ l -> skipn (count q l) l = filter (fun x => negb (q x)) l.
Proof.
  intros D. unfold count. induction l as [|x r IH]; intros Hs; [reflexivity|]. cbn [sortedZ] in Hs. destruct Hs as [H1 H2]. cbn [filter].
  destruct (q x) eqn:E; cbn [negb]; [cbn [length skipn]; apply IH, H2|].
  assert (forall y, In y r -> q y = false) as F. { intros y Hy. destruct (q y) eqn:Ey; [|reflexivity]. rewrite (D x y (H1 y Hy) Ey) in E. discriminate E. }
  rewrite (filter_false q r F). cbn [length skipn]. f_equal. symmetry. apply filter_true. intros y Hy. rewrite F by exact Hy. reflexivity.
Qed.
Lemma sorted_filter q l : sortedZ l -> sortedZ (filter q l).
Proof.
  induction l as [|x r IH]; intros Hs; [exact I|]. cbn [sortedZ] in Hs. destruct Hs as [H1 H2]. cbn [filter]. destruct (q x); [|auto].
  cbn [sortedZ]. split; [|auto]. intros y Hy. apply filter_In in Hy. apply H1, Hy.
Qed.
Lemma sorted_shift k l : sortedZ l -> sortedZ (map (fun z => z - k)%Z l).
Proof.
  induction l as [|x r IH]; intros Hs; [exact I|]. cbn [sortedZ map] in *. destruct Hs as [H1 H2]. split; [|auto].
  intros y Hy. apply in_map_iff in Hy. destruct Hy as (z & <- & Hz). specialize (H1 z Hz). lia.
Qed.
Lemma lslice_counts q1 q2 l : down q1 -> down q2 -> sortedZ l -> (forall x, q1 x = true -> q2 x = true) ->
  count q1 l <= count q2 l /\ lslice l (count q1 l) (count q2 l) = filter (fun x => negb (q1 x) && q2 x) l.
Proof.
  intros D1 D2 Hs I12. assert (count q1 l <= count q2 l) as C.
  { unfold count. rewrite (filter_ext_in_ q1 (fun x => q2 x && q1 x)) by (intros x _; destruct (q1 x) eqn:E; [rewrite (I12 x E); reflexivity|rewrite andb_false_r; reflexivity]).
    rewrite <- filter_filter. apply filter_sub. }
  split; [exact C|]. unfold lslice. rewrite firstn_skipn_comm. replace (count q1 l + (count q2 l - count q1 l)) with (count q2 l) by lia.
  rewrite firstn_count by assumption.
  assert (count q1 l = count q1 (filter q2 l)) as ->.
  { unfold count. rewrite filter_filter. rewrite (filter_ext_in_ q1 (fun x => q2 x && q1 x)); [reflexivity|]. intros x _. destruct (q1 x) eqn:E; [rewrite (I12 x E); reflexivity|rewrite andb_false_r; reflexivity]. }
  rewrite skipn_count by (try assumption; apply sorted_filter, Hs). rewrite filter_filter. apply filter_ext_in_. intros x _. apply andb_comm.
Qed.
Lemma down_lt v : down (fun x => x <? v)%Z.
Proof. intros x y H E. apply Z.ltb_lt in E. apply Z.ltb_lt. lia. Qed.
Lemma down_le v : down (fun x => x <=? v)%Z.
Proof. intros x y H E. apply Z.leb_le in E. apply Z.leb_le. lia. Qed.

(** Strictly increasing lists with the same members are equal. *)
Lemma ss_eq (l1 l2 : list nat) : StronglySorted lt l1 -> StronglySorted lt l2 -> (forall x, In x l1 <-> In x l2) -> l1 = l2.
Proof.
  revert l2. induction l1 as [|x r IH]; intros l2 S1 S2 E.
  - destruct l2 as [|y l2]; [reflexivity|]. destruct (proj2 (E y) (or_introl eq_refl)).
  - destruct l2 as [|y l2]; [destruct (proj1 (E x) (or_introl eq_refl))|].
    apply StronglySorted_inv in S1. apply StronglySorted_inv in S2. destruct S1 as [S1 F1]. destruct S2 as [S2 F2]. rewrite Forall_forall in F1, F2.
    assert (x = y) as <-.
    { destruct (proj1 (E x) (or_introl eq_refl)) as [->|H1]; [reflexivity|]. destruct (proj2 (E y) (or_introl eq_refl)) as [->|H2]; [reflexivity|].
      specialize (F1 y H2). specialize (F2 x H1). lia. }
    f_equal. apply IH; [assumption|assumption|]. intros z. split; intros Hz.
    + destruct (proj1 (E z) (or_intror Hz)) as [->|]; [|assumption]. specialize (F1 z Hz). lia.
    + destruct (proj2 (E z) (or_intror Hz)) as [->|]; [|assumption]. specialize (F2 z Hz). lia.
Qed.
Lemma insert_key_in k l x : In x (insert_key k l) <-> x = k \/ In x l.
Proof.
  induction l as [|y r IH]; cbn [insert_key]; [cbn; intuition auto|]. destruct (Nat.ltb_spec k y); [cbn; intuition auto|].
  destruct (Nat.eqb_spec k y) as [->|]; [cbn; intuition auto|]. cbn [In]. rewrite IH. intuition auto.
Qed.
Lemma insert_key_ss k l : StronglySorted lt l -> StronglySorted lt (insert_key k l).
Proof.
  induction l as [|y r IH]; intros Hs; cbn [insert_key]; [repeat constructor|]. apply StronglySorted_inv in Hs. destruct Hs as [S1 F].
  destruct (Nat.ltb_spec k y).
  - constructor; [constructor; assumption|]. constructor; [assumption|]. eapply Forall_impl; [|exact F]. cbn. lia.
  - destruct (Nat.eqb_spec k y) as [->|]; [constructor; assumption|]. constructor; [auto|]. apply Forall_forall. intros x Hx. apply insert_key_in in Hx.
    destruct Hx as [->|Hx]; [lia|]. rewrite Forall_forall in F. apply F, Hx.
Qed.
Lemma sorted_keys_in l x : In x (sorted_keys l) <-> In x l.
Proof. induction l as [|k r IH]; [reflexivity|]. cbn [sorted_keys fold_right]. fold (sorted_keys r). rewrite insert_key_in, IH. cbn. intuition auto. Qed.
Lemma sorted_keys_ss l : StronglySorted lt (sorted_keys l).
Proof. induction l as [|k r IH]; [constructor|]. apply insert_key_ss, IH. Qed.
Lemma seq_ss a n : StronglySorted lt (seq a n).
Proof. revert a; induction n as [|n IH]; intros a; cbn [seq]; constructor; [apply IH|]. apply Forall_forall. intros x Hx. apply in_seq in Hx. lia. Qed.
Lemma filter_ss q (l : list nat) : StronglySorted lt l -> StronglySorted lt (filter q l).
Proof.
  induction l as [|x r IH]; intros Hs; [constructor|]. apply StronglySorted_inv in Hs. destruct Hs as [S1 F]. cbn [filter]. destruct (q x); [|auto].
  constructor; [auto|]. apply Forall_forall. intros y Hy. apply filter_In in Hy. rewrite Forall_forall in F. apply F, Hy.
Qed.

(** * The chunk of a row *)
Section Rows.
  Variable ro : list nat.
  Variable n : nat.
  Hypothesis Hro : length ro = S n.
  Hypothesis Mono : forall k, k < n -> nth k ro 0%nat <= nth (S k) ro 0%nat.

  Lemma ro_mono : forall a b, a <= b -> b <= n -> nth a ro 0%nat <= nth b ro 0%nat.
  Proof. intros a b H. induction H as [|b H IH]; intros Hb; [lia|]. specialize (IH ltac:(lia)). specialize (Mono b ltac:(lia)). lia. Qed.
  Lemma ro_sorted : sortedZ (map Z.of_nat ro).
  Proof.
    assert (forall l, (forall a b, a <= b -> b < length l -> nth a l 0%nat <= nth b l 0%nat) -> sortedZ (map Z.of_nat l)) as H.
    { induction l as [|x r IH]; intros H; [exact I|]. cbn [map sortedZ]. split.
      - intros y Hy. apply in_map_iff in Hy. destruct Hy as (m & <- & Hm). apply (In_nth _ _ 0) in Hm. destruct Hm as (i & Hi & <-). pose proof (H 0 (S i) ltac:(lia) ltac:(cbn; lia)) as Q. cbn [nth] in Q. lia.
      - apply IH. intros a b Hab Hb. apply (H (S a) (S b)); cbn; lia. }
    apply H. intros a b Hab Hb. apply ro_mono; lia.
  Qed.
  Lemma count_upto z k : k < n -> (Z.of_nat (nth k ro 0%nat) <= z < Z.of_nat (nth (S k) ro 0%nat))%Z -> count (fun x => x <=? z)%Z (map Z.of_nat ro) = S k.
  Proof.
    intros Hk Hz. rewrite count_map.
    assert (forall l j, j < length l -> (forall a b, a <= b -> b < length l -> nth a l 0%nat <= nth b l 0%nat) -> (Z.of_nat (nth j l 0%nat) <= z)%Z -> (forall b, j < b -> b < length l -> (z < Z.of_nat (nth b l 0%nat))%Z) ->
      count (fun x => Z.of_nat x <=? z)%Z l = S j) as H.
    { induction l as [|x r IH]; intros j Hj M H1 H2; [cbn in Hj; lia|]. unfold count in *. cbn [filter].
      assert (Z.of_nat x <= z)%Z as Hx by (pose proof (M 0 j ltac:(lia) Hj) as Q; change (nth 0 (x :: r) 0) with x in Q; lia). rewrite (proj2 (Z.leb_le _ _) Hx). cbn [length]. f_equal.
      destruct j as [|j].
      - rewrite filter_false; [reflexivity|]. intros y Hy. apply (In_nth _ _ 0) in Hy. destruct Hy as (i & Hi & <-). specialize (H2 (S i) ltac:(lia) ltac:(cbn; lia)). cbn [nth] in H2. apply Z.leb_gt. exact H2.
      - apply IH; [cbn in Hj; lia|intros a b Hab Hb; apply (M (S a) (S b)); cbn; lia|exact H1|]. intros b Hb Hl. apply (H2 (S b)); cbn; lia. }
    apply H; [lia|intros a b Hab Hb; apply ro_mono; lia|lia|]. intros b Hb Hl. pose proof (ro_mono (S k) b ltac:(lia) ltac:(lia)). lia.
  Qed.
  Hypothesis Small : (Z.of_nat n < 4294967296)%Z.
  Lemma chunk_of_ok z k : k < n -> (Z.of_nat (nth k ro 0%nat) <= z < Z.of_nat (nth (S k) ro 0%nat))%Z -> chunk_of ro z = Ok k.
  Proof.
    intros Hk Hz. unfold chunk_of. destruct (search_sorted_list_point (map Z.of_nat ro) z Right ro_sorted) as (r & E & P & _). rewrite E. cbn [bind].
    rewrite count_upto with (k := k) in P by assumption. unfold to_ends_index. rewrite P.
    rewrite (proj2 (Nat.eqb_neq _ _)) by lia. cbn [bind]. f_equal. rewrite Z.mod_small by lia. lia.
  Qed.

  (** The rows in chunk [k]. *)
  Definition rows_in (idx : list Z) (k : nat) : list Z := filter (fun z => (Z.of_nat (nth k ro 0%nat) <=? z) && (z <? Z.of_nat (nth (S k) ro 0%nat)))%Z idx.
  Lemma rows_prefix idx k : sortedZ idx -> k <= n -> concat (map (rows_in idx) (seq 0 k)) = filter (fun z => (Z.of_nat (nth 0 ro 0%nat) <=? z) && (z <? Z.of_nat (nth k ro 0%nat)))%Z idx.
  Proof.
    intros Hs. induction k as [|k IH]; intros Hk.
    - cbn [seq map concat]. symmetry. apply filter_false. intros z _. destruct (Z.leb_spec (Z.of_nat (nth 0 ro 0%nat)) z); [|reflexivity]. cbn [andb]. apply Z.ltb_ge. assumption.
    - rewrite seq_S, map_app, concat_app, IH by lia. cbn [plus map concat]. rewrite app_nil_r. unfold rows_in.
      pose proof (ro_mono 0 k ltac:(lia) ltac:(lia)) as M0. pose proof (Mono k ltac:(lia)) as M1.
      set (a := nth 0 ro 0%nat) in *. set (b := nth k ro 0%nat) in *. set (e := nth (S k) ro 0%nat) in *. clearbody a b e. clear IH Hk.
      induction idx as [|x r IH]; [reflexivity|]. cbn [sortedZ] in Hs. destruct Hs as [H1 H2]. specialize (IH H2). cbn [filter].
      destruct (Z.leb_spec (Z.of_nat a) x), (Z.ltb_spec x (Z.of_nat b)), (Z.leb_spec (Z.of_nat b) x), (Z.ltb_spec x (Z.of_nat e)); cbn [andb]; try lia; try (cbn [app]; rewrite IH; reflexivity); try exact IH.
      rewrite filter_false in IH |- *; [cbn [app] in *; rewrite IH; reflexivity| |];
        intros y Hy; specialize (H1 y Hy); rewrite (proj2 (Z.ltb_ge y (Z.of_nat b))) by lia; apply andb_false_r.
  Qed.
  Lemma rows_all idx : sortedZ idx -> Forall (fun z => 0 <= z < Z.of_nat (nth n ro 0%nat))%Z idx -> nth 0 ro 0%nat = 0 -> concat (map (rows_in idx) (seq 0 n)) = idx.
  Proof.
    intros Hs F H0. rewrite rows_prefix by auto. rewrite H0. apply filter_true. intros z Hz. rewrite Forall_forall in F. specialize (F z Hz). apply andb_true_iff. split; [apply Z.leb_le|apply Z.ltb_lt]; lia.
  Qed.
  Lemma row_chunk z : nth 0 ro 0%nat = 0 -> (0 <= z < Z.of_nat (nth n ro 0%nat))%Z -> exists k, k < n /\ (Z.of_nat (nth k ro 0%nat) <= z < Z.of_nat (nth (S k) ro 0%nat))%Z.
  Proof.
    intros H0 Hz. assert (forall m, m <= n -> (z < Z.of_nat (nth m ro 0%nat))%Z -> exists k, k < m /\ (Z.of_nat (nth k ro 0%nat) <= z < Z.of_nat (nth (S k) ro 0%nat))%Z) as H.
    { induction m as [|m IH]; intros Hm Hlt; [lia|]. destruct (Z.lt_ge_cases z (Z.of_nat (nth m ro 0%nat))); [|exists m; lia].
      destruct IH as (k & K1 & K2); [lia|assumption|]. exists k. split; [lia|exact K2]. }
    apply H; lia.
  Qed.
  Lemma find_chunks_ok idx : nth 0 ro 0%nat = 0 -> Forall (fun z => 0 <= z < Z.of_nat (nth n ro 0%nat))%Z idx -> (Z.of_nat (nth n ro 0%nat) <= pmax U64)%Z ->
    find_chunks ro idx = Ok (filter (fun k => negb (length (rows_in idx k) =? 0)) (seq 0 n)).
  Proof.
    intros H0 F HU. unfold find_chunks. rewrite (proj2 (forallb_forall _ _)).
    2:{ intros z Hz. rewrite Forall_forall in F. specialize (F z Hz). apply in_rangeb_spec. unfold in_range. change (pmin U64) with 0%Z. lia. }
    assert (match last_opt idx, last_opt ro with Some z, Some m => (Z.of_nat m <=? z)%Z | _, _ => false end = false) as ->.
    { unfold last_opt. destruct (rev idx) as [|z ri] eqn:E; [reflexivity|]. destruct (rev ro) as [|m rr] eqn:E2; [reflexivity|].
      assert (In z idx) as Hz by (apply in_rev; rewrite E; left; reflexivity). rewrite Forall_forall in F. specialize (F z Hz).
      assert (ro = rev rr ++ [m]) as ER by (rewrite <- (rev_involutive ro), E2; reflexivity).
      assert (nth n ro 0%nat = m) as EN. { rewrite ER. rewrite app_nth2; rewrite rev_length; rewrite ER, app_length, rev_length in Hro; cbn in Hro; [|lia]. replace (n - length rr) with 0 by lia. reflexivity. }
      rewrite EN in F. apply Z.leb_gt. lia. }
    assert (exists ks, mapM (chunk_of ro) idx = Ok ks /\ forall k, In k ks <-> k < n /\ rows_in idx k <> []) as (ks & -> & HK).
    { clear HU. induction F as [|z idx Hz F IH]; [exists []; split; [reflexivity|]; cbn; tauto|]. destruct IH as (ks & E & HK). destruct (row_chunk z H0 Hz) as (k & K1 & K2).
      exists (k :: ks). cbn [mapM]. rewrite (chunk_of_ok z k K1 K2), E. split; [reflexivity|]. intros k'. cbn [In]. rewrite HK. unfold rows_in. cbn [filter].
      destruct (Z.leb_spec (Z.of_nat (nth k' ro 0%nat)) z) as [A|A]; cbn [andb]; [destruct (Z.ltb_spec z (Z.of_nat (nth (S k') ro 0%nat))) as [B|B]|].
      - split; [intros [<-|[? _]]; (split; [assumption|discriminate])|]. intros [? _]. left. destruct (Nat.lt_trichotomy k k') as [X|[X|X]]; [|exact X|].
        + pose proof (ro_mono (S k) k' ltac:(lia) ltac:(lia)). lia.
        + pose proof (ro_mono (S k') k ltac:(lia) ltac:(lia)). lia.
      - split; [intros [<-|?]; [lia|assumption]|auto].
      - split; [intros [<-|?]; [lia|assumption]|auto]. }
    cbn [bind]. f_equal. apply ss_eq; [apply sorted_keys_ss|apply filter_ss, seq_ss|]. intros k. rewrite sorted_keys_in, HK, filter_In, in_seq, negb_true_iff, Nat.eqb_neq.
    split; intros [A B]; (split; [lia|]); destruct (rows_in idx k); cbn in *; try congruence; lia.
  Qed.
End Rows.

(** * One chunk *)
Lemma batch_stream_one c known ac d fuel n t : item_fits c (IBatch n t) -> item_known known (IBatch n t) -> 1 < fuel ->
  batch_stream c known ac d fuel (item_bytes c (IBatch n t)) = Ok [a_de ac d n t].
Proof.
  intros F K Hf. unfold batch_stream, try_reader. pose proof (load_at c [IBatch n t] (Forall_cons _ F (Forall_nil _))) as (x & L & A).
  unfold stream_bytes in L. cbn [flat_map] in L. rewrite app_nil_r in L. rewrite L. destruct x as [more r0]. cbn [bind].
  assert (fin_of (more, r0) = r0) as E. { unfold fin_of in *. destruct more; [auto|]. cbn [fst snd at_items] in A. discriminate A. }
  rewrite E in A. destruct (array_stream_run c known [(n, t)] [] r0 fuel) as (r' & ES & _); [exact (Forall_cons _ F (Forall_nil _))|exact (Forall_cons _ K (Forall_nil _))|exact I|exact Hf|exact A|].
  rewrite ES. reflexivity.
Qed.

Lemma search_idx_ok p idx v s : sortedZ idx -> in_range p v ->
  search_idx p idx v s = Ok (match s with Left => count (fun x => (x <? v)%Z) idx | Right => count (fun x => (x <=? v)%Z) idx end).
Proof.
  intros Hs R. unfold search_idx. rewrite (proj2 (in_rangeb_spec p v) R). destruct (search_sorted_list_point idx v s Hs) as (r & -> & P & _). cbn [bind]. rewrite P. reflexivity.
Qed.
Lemma int_range p z : is_int p = true -> (0 <= z <= pmax p)%Z -> in_range p z.
Proof. intros I H. unfold in_range. split; [|lia]. destruct p; try discriminate I; unfold pmin; cbn; lia. Qed.
Lemma subtract_idx_ok p idx v : (forall z, In z idx -> in_range p (z - v)) -> subtract_idx p idx v = Ok (map (fun z => z - v)%Z idx).
Proof.
  intros H. unfold subtract_idx. destruct (Z.eqb_spec v 0) as [->|].
  - f_equal. symmetry. rewrite <- (map_id idx) at 2. apply map_ext. intros. lia.
  - induction idx as [|z r IH]; [reflexivity|]. cbn [mapM map]. rewrite (proj2 (in_rangeb_spec p _) (H z (or_introl eq_refl))). cbn [bind].
    rewrite IH by (intros; apply H; right; assumption). reflexivity.
Qed.
Lemma count_le {A} (q : A -> bool) l : count q l <= length l.
Proof. apply filter_sub. Qed.
Lemma slice_idx_ok q1 q2 l : down q1 -> down q2 -> sortedZ l -> (forall x, q1 x = true -> q2 x = true) ->
  slice_idx l (count q1 l) (count q2 l) = Ok (filter (fun x => negb (q1 x) && q2 x) l).
Proof.
  intros D1 D2 Hs H. destruct (lslice_counts q1 q2 l D1 D2 Hs H) as [C E]. unfold slice_idx.
  rewrite (proj2 (Nat.leb_le _ _) (count_le q2 l)), (proj2 (Nat.leb_le _ _) C). cbn [andb]. rewrite E. reflexivity.
Qed.

Lemma stream_take_one p idx A : is_int p = true -> sortedZ idx -> (forall z, In z idx -> (0 <= z <= pmax p)%Z) -> (Z.of_nat (alen A) <= pmax p)%Z ->
  filter (fun z => z <? Z.of_nat (alen A))%Z idx <> [] ->
  take_stream p idx [Ok A] = do x <- take A p (map Z.to_nat (filter (fun z => z <? Z.of_nat (alen A))%Z idx)); Ok [x].
Proof.
  intros I Hs HR HA NE. unfold take_stream. destruct idx as [|z0 idx0]; [contradiction NE; reflexivity|]. set (idx := z0 :: idx0) in *.
  assert (stat_sorted false idx = Some true) as -> by (unfold stat_sorted, idx; fold idx; f_equal; apply incr_sorted, Hs).
  assert (existsb (fun z => z <? 0)%Z idx = false) as ->.
  { destruct (existsb _ idx) eqn:E; [|reflexivity]. apply existsb_exists in E. destruct E as (z & Hz & E). specialize (HR z Hz). apply Z.ltb_lt in E. lia. }
  rewrite andb_false_r. cbn [stream_take bind]. rewrite !search_idx_ok; [|exact Hs|apply int_range; [exact I|cbn; lia]|exact Hs|apply int_range; [exact I|cbn; lia]].
  cbn [bind plus]. change (Z.of_nat 0) with 0%Z.
  assert (count (fun x => x <? 0)%Z idx = 0) as C0. { apply count_zero. intros x Hx. specialize (HR x Hx). apply Z.ltb_ge. lia. }
  rewrite C0. rewrite (proj2 (Nat.eqb_neq _ _)). 2:{ intros E. symmetry in E. unfold count in E. destruct (filter _ idx); [contradiction NE; reflexivity|discriminate E]. }
  rewrite <- C0 at 1. rewrite slice_idx_ok; [|apply down_lt|apply down_lt|exact Hs|intros x H; apply Z.ltb_lt in H; apply Z.ltb_lt; lia]. cbn [bind].
  rewrite (filter_ext_in_ _ (fun z => z <? Z.of_nat (alen A))%Z). 2:{ intros x Hx. specialize (HR x Hx). rewrite (proj2 (Z.ltb_ge x 0)) by lia. reflexivity. }
  unfold subtract_idx. cbn [bind Z.eqb]. unfold take_ids. rewrite (proj2 (forallb_forall _ _)). 2:{ intros x Hx. apply filter_In in Hx. destruct Hx as [Hx _]. specialize (HR x Hx). apply Z.leb_le. lia. }
  reflexivity.
Qed.

Lemma take_from_chunk_ok c known ac d fuel file p idx sb eb sr er n t A :
  is_int p = true -> sortedZ idx -> (forall z, In z idx -> (0 <= z)%Z) -> sb <= eb -> eb <= length file ->
  firstn (eb - sb) (skipn sb file) = item_bytes c (IBatch n t) -> er = sr + n -> item_fits c (IBatch n t) -> item_known known (IBatch n t) -> 1 < fuel ->
  a_de ac d n t = Ok A -> alen A = n -> (Z.of_nat er <= pmax p)%Z ->
  filter (fun z => (Z.of_nat sr <=? z) && (z <? Z.of_nat er))%Z idx <> [] ->
  take_from_chunk c known ac d fuel file p idx sb eb sr er =
    do x <- take A p (map (fun z => Z.to_nat z - sr) (filter (fun z => (Z.of_nat sr <=? z) && (z <? Z.of_nat er))%Z idx)); Ok [x].
Proof.
  intros I Hs H0 B1 B2 EB ER Fi Kn Hf DE LA HP NE. unfold take_from_chunk.
  rewrite (search_idx_ok p idx (Z.of_nat sr)) by (first [exact Hs|apply int_range; [exact I|lia]]). rewrite (search_idx_ok p idx (Z.of_nat er)) by (first [exact Hs|apply int_range; [exact I|lia]]). cbn [bind].
  rewrite slice_idx_ok; [|apply down_lt|apply down_le|exact Hs|intros x H; apply Z.ltb_lt in H; apply Z.leb_le; lia]. cbn [bind].
  set (part := filter _ idx). assert (forall z, In z part -> (Z.of_nat sr <= z <= Z.of_nat er)%Z) as HPt.
  { intros z Hz. apply filter_In in Hz. destruct Hz as [_ Hz]. apply andb_true_iff in Hz. destruct Hz as [Z1 Z2]. apply negb_true_iff, Z.ltb_ge in Z1. apply Z.leb_le in Z2. lia. }
  rewrite subtract_idx_ok by (intros z Hz; specialize (HPt z Hz); apply int_range; [exact I|lia]). cbn [bind].
  unfold read_range. rewrite (proj2 (Nat.ltb_ge _ _) B1), (proj2 (Nat.ltb_ge _ _) B2). cbn [bind]. rewrite EB. rewrite batch_stream_one by assumption. cbn [bind]. rewrite DE.
  assert (filter (fun z => z <? Z.of_nat (alen A))%Z (map (fun z => z - Z.of_nat sr)%Z part) = map (fun z => z - Z.of_nat sr)%Z (filter (fun z => (Z.of_nat sr <=? z) && (z <? Z.of_nat er))%Z idx)) as EF.
  { unfold part. clear - ER LA. induction idx as [|x r IH]; [reflexivity|]. cbn [filter]. rewrite (Z.leb_antisym x (Z.of_nat sr)). destruct (Z.ltb_spec x (Z.of_nat sr)); cbn [negb andb].
    - exact IH.
    - destruct (Z.leb_spec x (Z.of_nat er)), (Z.ltb_spec x (Z.of_nat er)); try lia; cbn [map filter]; [rewrite (proj2 (Z.ltb_lt _ _)) by lia; rewrite IH; reflexivity|rewrite (proj2 (Z.ltb_ge _ _)) by lia; exact IH|exact IH]. }
  rewrite stream_take_one.
  - rewrite EF, map_map. f_equal. f_equal. apply map_ext_in. intros z Hz. apply filter_In in Hz. destruct Hz as [_ Hz]. apply andb_true_iff in Hz. destruct Hz as [Hz _]. apply Z.leb_le in Hz. lia.
  - exact I.
  - apply sorted_shift, sorted_filter, Hs.
  - intros z Hz. apply in_map_iff in Hz. destruct Hz as (y & <- & Hy). specialize (HPt y Hy). lia.
  - lia.
  - rewrite EF. intros E. apply map_eq_nil in E. contradiction.
Qed.

(** * The whole file *)

(** The chunks of the file: what is written ([bs]: row count and serialised array) and the arrays they decode to. *)
Definition chunks_hold (c : codec) (known : nat -> bool) (ac : acodec) (f : flags) (d : dtype) (bs : list (nat * atree)) (As : list array) : Prop :=
  Forall2 (fun nt A => a_de ac d (fst nt) (snd nt) = Ok A /\ alen A = fst nt /\ adtype A = d /\ wf f A /\
                       item_fits c (IBatch (fst nt) (snd nt)) /\ item_known known (IBatch (fst nt) (snd nt))) bs As.

Lemma ssorted_length lo hi l : ssortedZ l -> Forall (fun z => lo <= z < hi)%Z l -> (lo <= hi)%Z -> (Z.of_nat (length l) <= hi - lo)%Z.
Proof.
  revert lo; induction l as [|x r IH]; intros lo Hs F H; [cbn; lia|]. cbn [ssortedZ] in Hs. destruct Hs as [H1 H2]. inversion F as [|? ? F1 F2]; subst.
  specialize (IH (x + 1)%Z H2). cbn [length]. assert (Z.of_nat (length r) <= hi - (x + 1))%Z; [apply IH; [|lia]|lia]. apply Forall_forall. intros y Hy. specialize (H1 y Hy). rewrite Forall_forall in F2. specialize (F2 y Hy). lia.
Qed.
Lemma concat_filter {B} (h : nat -> list B) q l : (forall k, In k l -> q k = false -> h k = []) -> concat (map h (filter q l)) = concat (map h l).
Proof.
  induction l as [|k r IH]; intros H; [reflexivity|]. cbn [filter map concat]. destruct (q k) eqn:E; cbn [map concat]; rewrite IH by (intros; apply H; [right|]; assumption); [reflexivity|].
  rewrite (H k (or_introl eq_refl) E). reflexivity.
Qed.

Section File.
  Variables (c : codec) (known : nat -> bool) (ac : acodec) (f : flags) (d : dtype) (bs : list (nat * atree)) (As : list array) (fuel : nat) (p : ptype) (idx : list Z) (file : list Z) (ro bo : list nat).
  Hypothesis HB : chunks_hold c known ac f d bs As.
  Hypothesis Hfc : ArrWf.fc f = true.
  Hypothesis Hft : ft f = true.
  Hypothesis Hfuel : 1 < fuel.
  Hypothesis Hint : is_int p = true.
  Hypothesis Hsmall : (Z.of_nat (length bs) < 4294967296)%Z.
  Let total := length (concat (map logical As)).
  Hypothesis Htot : (Z.of_nat total <= pmax p)%Z.
  Hypothesis Hss : ssortedZ idx.
  Hypothesis Hne : idx <> [].
  Hypothesis Hin : Forall (fun z => 0 <= z < Z.of_nat total)%Z idx.
  Hypothesis Lro : length ro = S (length bs).
  Hypothesis Lbo : length bo = S (length bs).
  Hypothesis R0 : nth 0 ro 0 = 0.
  Hypothesis HK : forall k n t, nth_error bs k = Some (n, t) ->
      nth (S k) ro 0 = nth k ro 0 + n /\ nth k bo 0 < nth (S k) bo 0 /\ nth (S k) bo 0 <= length file /\
      firstn (nth (S k) bo 0 - nth k bo 0) (skipn (nth k bo 0) file) = item_bytes c (IBatch n t).

  Lemma chunk_at k : k < length bs -> exists n t, nth_error bs k = Some (n, t) /\
    a_de ac d n t = Ok (nth k As (ANull 0)) /\ alen (nth k As (ANull 0)) = n /\ adtype (nth k As (ANull 0)) = d /\ wf f (nth k As (ANull 0)) /\ item_fits c (IBatch n t) /\ item_known known (IBatch n t) /\ k < length As.
  Proof.
    intros Hk. destruct (nth_error bs k) as [[n t]|] eqn:E; [|apply nth_error_None in E; lia]. exists n, t. split; [reflexivity|].
    clear - HB E. revert k E. induction HB as [|x A bs' As' H HR IH]; intros k E; [destruct k; discriminate E|].
    destruct k as [|k]; [cbn in E; assert (x = (n, t)) as -> by congruence; cbn [nth fst snd length] in *; intuition lia|]. cbn [nth_error nth length] in *. destruct (IH HR k E) as (A1 & A2 & A3 & A4 & A5 & A6 & A7). repeat (split; [assumption|]). lia.
  Qed.
  Lemma As_length : length As = length bs.
  Proof. clear - HB. induction HB; cbn; [reflexivity|]. f_equal. auto. Qed.
  Lemma ro_sum k : k <= length bs -> nth k ro 0 = list_sum (firstn k (map alen As)).
  Proof.
    induction k as [|k IH]; intros Hk; [rewrite R0; reflexivity|]. destruct (chunk_at k) as (n & t & E & _ & LA & _ & _ & _ & _ & KA); [lia|].
    destruct (HK k n t E) as [-> _]. rewrite IH by lia. rewrite list_sum_firstn_S by (rewrite map_length; exact KA). rewrite (map_nth_lt alen As (ANull 0)) by exact KA. rewrite LA. reflexivity.
  Qed.
  Lemma total_ro : total = nth (length bs) ro 0.
  Proof.
    rewrite ro_sum by lia. rewrite firstn_all2 by (rewrite map_length, As_length; lia). unfold total. rewrite concat_length_sum, map_map. f_equal. apply map_ext. intros a. apply logical_length.
  Qed.
  Lemma ro_step k : k < length bs -> nth k ro 0 <= nth (S k) ro 0.
  Proof. intros Hk. destruct (chunk_at k Hk) as (n & t & E & _). destruct (HK k n t E) as [-> _]. lia. Qed.
  Lemma total_u64 : (Z.of_nat total <= pmax U64)%Z.
  Proof. clear - Htot Hint. destruct p; try discriminate Hint; cbv [pmax is_signed bits] in *; cbn in *; lia. Qed.

  Definition want (k : nat) : list value := pick (concat (map logical As)) (map Z.to_nat (rows_in ro idx k)).
  Lemma step_ok k : k < length bs -> rows_in ro idx k <> [] ->
    outc (fT f = true \/ (fN f = true /\ p = U64))
      (do sr <- get_off ro k; do sb <- get_off bo k; do er <- get_off ro (k + 1); do eb <- get_off bo (k + 1); take_from_chunk c known ac d fuel file p idx sb eb sr er)
      (fun rs => exists x, rs = [x] /\ logical x = want k /\ (fk f = true \/ is_prim d = true -> adtype x = d)).
  Proof.
    intros Hk NE. destruct (chunk_at k Hk) as (n & t & E & DE & LA & DA & WA & Fi & Kn & KA). destruct (HK k n t E) as (E1 & E2 & E3 & E4). set (A := nth k As (ANull 0)) in *.
    rewrite Nat.add_1_r. unfold get_off. rewrite !(nth_error_nth' _ 0) by lia. cbn [bind].
    pose proof (ssorted_sorted idx Hss) as Hs. pose proof (ro_mono ro (length bs) Lro ro_step (S k) (length bs) ltac:(lia) ltac:(lia)) as RM. rewrite <- total_ro in RM.
    rewrite take_from_chunk_ok with (n := n) (t := t) (A := A); try assumption; try lia; [|intros z Hz; rewrite Forall_forall in Hin; specialize (Hin z Hz); lia].
    fold (rows_in ro idx k). set (sub := map (fun z => Z.to_nat z - nth k ro 0) (rows_in ro idx k)).
    assert (Forall (fun i => i < alen A) sub) as FS.
    { apply Forall_forall. intros i Hi. unfold sub in Hi. apply in_map_iff in Hi. destruct Hi as (z & <- & Hz). unfold rows_in in Hz. apply filter_In in Hz. destruct Hz as [_ Hz]. apply andb_true_iff in Hz. destruct Hz as [Z1 Z2]. apply Z.leb_le in Z1. apply Z.ltb_lt in Z2. lia. }
    assert (Z.of_nat (length sub) <= pmax U64)%Z as LS.
    { unfold sub. rewrite map_length. pose proof (filter_sub (fun z => (Z.of_nat (nth k ro 0%nat) <=? z) && (z <? Z.of_nat (nth (S k) ro 0%nat)))%Z idx) as Q. fold (rows_in ro idx k) in Q. pose proof (ssorted_length 0 _ idx Hss Hin ltac:(lia)). pose proof total_u64. lia. }
    destruct (take_commutes_with_decoding f A p sub WA Hfc Hft Hint LS) as [T1 T2]; [rewrite logical_length; exact FS|].
    assert (sub <> []) as SN by (unfold sub; intros E0; apply map_eq_nil in E0; contradiction).
    assert (forall b, take A p sub = Ok b -> logical b = want k /\ (fk f = true \/ is_prim d = true -> adtype b = d)) as T3.
    { intros b Eb. destruct (T1 b Eb) as (S1 & _ & _ & S2 & _). rewrite spec_take_pick in S1 by (rewrite logical_length; exact FS). split; [|rewrite DA in S2; exact S2].
      assert (logical b = pick (logical A) sub) as -> by congruence. unfold want. unfold A. rewrite <- (gidx_pick As k sub KA FS). f_equal. unfold gidx. cbn [fst snd]. rewrite <- ro_sum by lia. unfold sub. rewrite map_map. apply map_ext_in.
      intros z Hz. unfold rows_in in Hz. apply filter_In in Hz. destruct Hz as [_ Hz]. apply andb_true_iff in Hz. destruct Hz as [Z1 Z2]. apply Z.leb_le in Z1. lia. }
    destruct (take A p sub) as [b| |] eqn:ET; cbn [bind outc].
    - exists b. destruct (T3 b eq_refl). auto.
    - intros [X|[X1 X2]]; destruct T2 as (b & Q); auto; discriminate Q.
    - intros [X|[X1 X2]]; destruct T2 as (b & Q); auto; discriminate Q.
  Qed.

  Lemma take_rows_outcome :
    (forall r, take_rows c known ac d fuel file ro bo p idx = Ok r -> spec_take (concat (map logical As)) (map Z.to_nat idx) = Some (logical r) /\ adtype r = d) /\
    (fT f = true \/ (fN f = true /\ p = U64) -> fk f = true \/ is_prim d = true -> exists r, take_rows c known ac d fuel file ro bo p idx = Ok r).
  Proof.
    unfold take_rows. assert (stat_sorted true idx = Some true) as ->. { unfold stat_sorted. destruct idx; [contradiction|]. f_equal. apply incr_ssorted, Hss. }
    rewrite (find_chunks_ok ro (length bs) Lro ro_step Hsmall) by (rewrite <- ?total_ro; try assumption; apply total_u64). cbn [bind]. set (ks := filter _ _).
    set (h := fun k => do sr <- get_off ro k; _). set (T := fT f = true \/ fN f = true /\ p = U64). set (K := fk f = true \/ is_prim d = true).
    assert (outc T (mapM h ks) (fun rss => Forall2 (fun k rs => exists x, rs = [x] /\ logical x = want k /\ (K -> adtype x = d)) ks rss)) as H.
    { apply mapM_outc. intros k Hk. unfold ks in Hk. apply filter_In in Hk. destruct Hk as [K1 K2]. apply in_seq in K1. apply step_ok; [lia|]. intros E0. rewrite E0 in K2. discriminate K2. }
    assert (pick (concat (map logical As)) (map Z.to_nat idx) = concat (map want ks)) as EP.
    { unfold ks. rewrite concat_filter. 2:{ intros k _ E0. apply negb_false_iff, Nat.eqb_eq in E0. unfold want. destruct (rows_in ro idx k); [reflexivity|discriminate E0]. }
      rewrite <- (rows_all ro (length bs) Lro ro_step idx (ssorted_sorted idx Hss)) at 1; [|rewrite <- total_ro; exact Hin|exact R0].
      generalize (seq 0 (length bs)) as l. induction l as [|k l IH]; [reflexivity|]. cbn [map concat]. rewrite map_app, pick_app, IH. reflexivity. }
    assert (forall rss, Forall2 (fun k rs => exists x, rs = [x] /\ logical x = want k /\ (K -> adtype x = d)) ks rss -> concat (map logical (concat rss)) = concat (map want ks) /\ (K -> forallb (fun x => dtype_eqb (adtype x) d) (concat rss) = true)) as HF.
    { clear. intros rss. induction 1 as [|k rs ks rss (x & -> & L & D) HR [IH1 IH2]]; [split; reflexivity|]. cbn [concat app map]. rewrite L, IH1. split; [reflexivity|]. intros X. cbn [forallb]. rewrite (IH2 X), (D X), (proj2 (dtype_eqb_eq d d) eq_refl). reflexivity. }
    rewrite spec_take_pick. 2:{ apply Forall_forall. intros i Hi. apply in_map_iff in Hi. destruct Hi as (z & <- & Hz). rewrite Forall_forall in Hin. specialize (Hin z Hz). fold total. lia. }
    unfold try_chunked. split.
    - intros r E. destruct (mapM h ks) as [rss| |]; cbn [bind] in E; try discriminate E. cbn [outc] in H. destruct (HF rss H) as [HF1 _]. destruct (forallb _ _) in E; [|discriminate E].
      assert (r = AChunked d (concat rss)) as -> by congruence. cbn [logical adtype]. rewrite EP, <- HF1. split; reflexivity.
    - intros HT HKK. destruct (mapM h ks) as [rss| |]; cbn [outc] in H; [|contradiction (H HT)|contradiction (H HT)]. cbn [bind]. destruct (HF rss H) as [_ HF2]. rewrite (HF2 HKK). eauto.
  Qed.
End File.

(** C41: for a file of chunks (empty ones included) written after any aligned prefix and followed by anything, a strictly increasing,
    non-empty list of row ids below the number of rows gives exactly those rows, in order, with the data type of the file. *)
Theorem take_rows_takes_the_rows :
  forall c known ac f d bs As w fuel p idx rest,
  w_pos w = length (w_out w) -> length (w_out w) mod 64 = 0 -> chunks_hold c known ac f d bs As -> ArrWf.fc f = true -> ft f = true -> 1 < fuel ->
  is_int p = true -> (Z.of_nat (length bs) < 4294967296)%Z -> (Z.of_nat (length (concat (map logical As))) <= pmax p)%Z ->
  ssortedZ idx -> idx <> [] -> Forall (fun z => 0 <= z < Z.of_nat (length (concat (map logical As))))%Z idx ->
  exists w' bo ro, write_array_chunks c w bs = Ok (w', bo, ro) /\
    let run := take_rows c known ac d fuel (w_out w' ++ rest) ro bo p idx in
    (forall r, run = Ok r -> spec_take (concat (map logical As)) (map Z.to_nat idx) = Some (logical r) /\ adtype r = d) /\
    (fT f = true \/ (fN f = true /\ p = U64) -> fk f = true \/ is_prim d = true -> exists r, run = Ok r).
Proof.
  intros c known ac f d bs As w fuel p idx rest P A HB Hfc Hft Hf Hint Hs Htot Hss Hne Hin.
  destruct (chunk_offsets_tile c w bs P A) as (w' & bo & ro & E & L1 & L2 & B0 & BN & R0 & _ & HK). exists w', bo, ro. split; [exact E|]. cbn zeta.
  assert (forall a b, a <= b -> b <= length bs -> nth a bo 0 <= nth b bo 0) as BM.
  { intros a b H. induction H as [|b H IH]; intros Hb; [lia|]. specialize (IH ltac:(lia)). destruct (nth_error bs b) as [[n t]|] eqn:EB; [|apply nth_error_None in EB; lia]. destruct (HK b n t EB) as (_ & Q & _). lia. }
  apply (take_rows_outcome c known ac f d bs As); try assumption. intros k n t Hk. assert (k < length bs) as Kl by (apply nth_error_Some; congruence). destruct (HK k n t Hk) as (H1 & H2 & H3).
  pose proof (BM (S k) (length bs) ltac:(lia) ltac:(lia)) as Q. rewrite BN in Q. split; [exact H1|]. split; [exact H2|]. split; [rewrite app_length; lia|].
  rewrite skipn_app, firstn_app. replace (nth k bo 0 - length (w_out w')) with 0 by lia. rewrite skipn_length. replace (nth (S k) bo 0 - nth k bo 0 - (length (w_out w') - nth k bo 0)) with 0 by lia. cbn [firstn]. rewrite app_nil_r. exact H3.
Qed.
Print Assumptions take_rows_takes_the_rows.

(** A row id that is negative or not below the number of rows is an error. *)
Theorem take_rows_rejects_out_of_range :
  forall c known ac d bs w fuel file p idx, w_pos w = length (w_out w) -> length (w_out w) mod 64 = 0 ->
  ssortedZ idx -> (exists z, In z idx /\ (z < 0 \/ Z.of_nat (list_sum (map fst bs)) <= z)%Z) ->
  exists w' bo ro, write_array_chunks c w bs = Ok (w', bo, ro) /\ take_rows c known ac d fuel file ro bo p idx = Err.
Proof.
  intros c known ac d bs w fuel file p idx P A Hss (z & Hz & HZ).
  destruct (chunk_offsets_tile c w bs P A) as (w' & bo & ro & E & L1 & L2 & B0 & BN & R0 & _ & HK). exists w', bo, ro. split; [exact E|].
  unfold take_rows. assert (stat_sorted true idx = Some true) as ->. { unfold stat_sorted. destruct idx; [destruct Hz|]. f_equal. apply incr_ssorted, Hss. }
  assert (find_chunks ro idx = Err) as ->; [|reflexivity]. unfold find_chunks. destruct (forallb (in_rangeb U64) idx) eqn:EU; [|reflexivity].
  rewrite forallb_forall in EU. pose proof (EU z Hz) as Uz. apply in_rangeb_spec in Uz. unfold in_range in Uz. change (pmin U64) with 0%Z in Uz. destruct HZ as [HZ|HZ]; [lia|].
  assert (nth (length bs) ro 0 = list_sum (map fst bs)) as EN.
  { assert (forall k, k <= length bs -> nth k ro 0 = list_sum (firstn k (map fst bs))) as H.
    { induction k as [|k IH]; intros Hk; [exact R0|]. destruct (nth_error bs k) as [[n t]|] eqn:EB; [|apply nth_error_None in EB; lia]. destruct (HK k n t EB) as [-> _]. rewrite IH by lia.
      rewrite list_sum_firstn_S by (rewrite map_length; lia). f_equal. rewrite (map_nth_lt fst bs (n, t)) by lia. rewrite (nth_error_nth _ _ _ EB). reflexivity. }
    rewrite H by lia. rewrite firstn_all2 by (rewrite map_length; lia). reflexivity. }
  assert (match last_opt idx, last_opt ro with Some x, Some m => (Z.of_nat m <=? x)%Z | _, _ => false end = true) as ->; [|reflexivity].
  unfold last_opt. destruct (rev idx) as [|x ri] eqn:E1; [assert (idx = []) as -> by (rewrite <- (rev_involutive idx), E1; reflexivity); destruct Hz|].
  destruct (rev ro) as [|m rr] eqn:E2; [assert (ro = []) as -> by (rewrite <- (rev_involutive ro), E2; reflexivity); discriminate L2|].
  assert (ro = rev rr ++ [m]) as ER by (rewrite <- (rev_involutive ro), E2; reflexivity).
  assert (nth (length bs) ro 0 = m) as EM. { rewrite ER. rewrite app_nth2; rewrite rev_length; rewrite ER, app_length, rev_length in L2; cbn in L2; [|lia]. replace (length bs - length rr) with 0 by lia. reflexivity. }
  assert (idx = rev ri ++ [x]) as EI by (rewrite <- (rev_involutive idx), E1; reflexivity).
  assert (z <= x)%Z as ZX. { clear - EI Hss Hz. rewrite EI in *. clear EI. induction (rev ri) as [|y r IH]; [destruct Hz as [<-|[]]; lia|]. cbn [app ssortedZ] in Hss. destruct Hss as [S1 S2]. destruct Hz as [<-|Hz]; [|auto]. specialize (S1 x ltac:(apply in_or_app; right; left; reflexivity)). lia. }
  apply Z.leb_le. lia.
Qed.
Print Assumptions take_rows_rejects_out_of_range.

(** * Example: chunks of 2, 0, 4 and 5 rows; one take spanning three of them and touching chunk boundaries *)
Definition demo_bs : list (nat * atree) := map (fun n => (n, Node n [] [] None [])) [2; 0; 4; 5].
Definition demo_As : list array := map (nth_arr demo_a) [2; 0; 4; 5].
Example take_rows_hypotheses : chunks_hold demo_c (fun _ => true) demo_ac demo_f (DPrim U8 false) demo_bs demo_As.
Proof.
  unfold chunks_hold, demo_bs, demo_As. cbn [map].
  assert (forall n, n = 2 \/ n = 0 \/ n = 4 \/ n = 5 -> let nt := (n, Node n [] [] None []) in let A := nth_arr demo_a n in
    a_de demo_ac (DPrim U8 false) (fst nt) (snd nt) = Ok A /\ alen A = fst nt /\ adtype A = DPrim U8 false /\ wf demo_f A /\ item_fits demo_c (IBatch (fst nt) (snd nt)) /\ item_known (fun _ => true) (IBatch (fst nt) (snd nt))) as H.
  { intros n Hn nt A. split; [reflexivity|]. unfold nt, A. cbn [fst snd]. split; [destruct Hn as [->|[->|[->| ->]]]; reflexivity|]. split; [destruct Hn as [->|[->|[->| ->]]]; reflexivity|]. split.
    - destruct Hn as [->|[->|[->| ->]]]; (split; [|exact I]); apply Forall_forall; intros x Hx; apply in_rangeb_spec; cbn [In] in Hx; repeat (destruct Hx as [<-|Hx]; [reflexivity|]); destruct Hx.
    - split; [|exact eq_refl]. split; [|split; [|exact I]].
      + intros k. change (msg_of (IBatch n (Node n [] [] None []))) with (MBatch (FNode n [] [] None []) n [] 0). cbn [enc dec demo_c app]. rewrite (proj2 (Z.eqb_neq _ _)) by lia. replace (2 + Z.of_nat n - 2)%Z with (Z.of_nat n) by lia. rewrite Nat2Z.id. reflexivity.
      + change (Z.of_nat 1 + 68 <= 4294967296)%Z. lia. }
  repeat (apply Forall2_cons; [apply H; auto|]). apply Forall2_nil.
Qed.
Example take_rows_runs :
  match write_array_chunks demo_c (W [] 0) demo_bs with
  | Ok (w, bo, ro) => ro = [0; 2; 2; 6; 11] /\
      exists r, take_rows demo_c (fun _ => true) demo_ac (DPrim U8 false) 5 (w_out w) ro bo U64 [1; 2; 5; 6; 10]%Z = Ok r /\ logical r = [VInt 3; VInt 4; VInt 7; VInt 8; VInt 12]
  | _ => False
  end.
Proof. vm_compute. split; [reflexivity|]. eexists. split; reflexivity. Qed.

(** * What is not supported *)

(** No row ids, or row ids that are not strictly increasing, abort the program. *)
Theorem take_rows_of_other_lists_refuted :
  forall c known ac d fuel file ro bo p, 
  take_rows c known ac d fuel file ro bo p [] = Panic /\
  forall idx, ~ ssortedZ idx -> take_rows c known ac d fuel file ro bo p idx = Panic.
Proof.
  intros. split; [reflexivity|]. intros idx H. unfold take_rows, stat_sorted. destruct idx as [|z r]; [contradiction H; exact I|].
  destruct (incr true (z :: r)) eqn:E; [apply incr_ssorted in E; contradiction|reflexivity].
Qed.

(** Row ids of a narrow type fail when the chunk they lie in ends beyond that type, although the ids are in range: the chunk's end is
    converted to the type of the ids. *)
Theorem take_rows_narrow_ids_refuted :
  forall c known ac d fuel file, take_rows c known ac d fuel file [0; 256] [0; 64] U8 [7]%Z = Err.
Proof. reflexivity. Qed.

(** * Taking rows from any stream of arrays *)
Lemma take_batch f p B ids d : ArrWf.fc f = true -> ft f = true -> is_int p = true -> wf f B -> adtype B = d ->
  (Z.of_nat (length ids) <= pmax U64)%Z -> ids <> [] -> (forall z, In z ids -> (0 <= z < Z.of_nat (alen B))%Z) ->
  outc (fT f = true \/ (fN f = true /\ p = U64)) (take_ids B p ids)
    (fun x => logical x = pick (logical B) (map Z.to_nat ids) /\ (fk f = true \/ is_prim d = true -> adtype x = d)).
Proof.
  intros Hfc Hft I W D Hl NE HR. unfold take_ids. rewrite (proj2 (forallb_forall _ _)) by (intros z Hz; specialize (HR z Hz); apply Z.leb_le; lia).
  assert (Forall (fun i => i < length (logical B)) (map Z.to_nat ids)) as FS.
  { apply Forall_forall. intros i Hi. apply in_map_iff in Hi. destruct Hi as (z & <- & Hz). specialize (HR z Hz). rewrite logical_length. lia. }
  destruct (take_commutes_with_decoding f B p (map Z.to_nat ids) W Hfc Hft I) as [T1 T2]; [rewrite map_length; exact Hl|exact FS|].
  assert (map Z.to_nat ids <> []) as SN by (intros E0; apply map_eq_nil in E0; contradiction).
  destruct (take B p (map Z.to_nat ids)) as [b| |] eqn:ET; cbn [outc].
  - destruct (T1 b eq_refl) as (S1 & _ & _ & S2 & _). rewrite spec_take_pick in S1 by exact FS. rewrite D in S2. split; [congruence|exact S2].
  - intros [X|[X1 X2]]; destruct T2 as (b & Q); auto; discriminate Q.
  - intros [X|[X1 X2]]; destruct T2 as (b & Q); auto; discriminate Q.
Qed.

Lemma filter_split_at (a b : Z) l : sortedZ l -> (a <= b)%Z ->
  filter (fun z => a <=? z)%Z l = filter (fun z => negb (z <? a) && (z <? b))%Z l ++ filter (fun z => b <=? z)%Z l.
Proof.
  intros Hs Hab. induction l as [|x r IH]; [reflexivity|]. cbn [sortedZ] in Hs. destruct Hs as [H1 H2]. specialize (IH H2). cbn [filter].
  destruct (Z.leb_spec a x), (Z.ltb_spec x a), (Z.ltb_spec x b), (Z.leb_spec b x); try lia; cbn [negb andb app]; [rewrite IH; reflexivity| |exact IH].
  rewrite (filter_false (fun z => negb (z <? a) && (z <? b))%Z r), (filter_true (fun z => b <=? z)%Z r), (filter_true (fun z => a <=? z)%Z r); [reflexivity| | |].
  - intros y Hy. specialize (H1 y Hy). apply Z.leb_le. lia.
  - intros y Hy. specialize (H1 y Hy). apply Z.leb_le. lia.
  - intros y Hy. specialize (H1 y Hy). rewrite (proj2 (Z.ltb_ge y b)) by lia. apply andb_false_r.
Qed.

Lemma stream_take_ok f d p idx : ArrWf.fc f = true -> ft f = true -> is_int p = true -> sortedZ idx -> (Z.of_nat (length idx) <= pmax U64)%Z ->
  forall Bs pre off, off = length pre -> Forall (wf f) Bs -> Forall (fun B => adtype B = d) Bs ->
  (Z.of_nat (off + length (concat (map logical Bs))) <= pmax p)%Z ->
  (forall z, In z idx -> (z < Z.of_nat (off + length (concat (map logical Bs))))%Z) ->
  outc (fT f = true \/ (fN f = true /\ p = U64)) (stream_take p idx off (map Ok Bs))
    (fun xs => concat (map logical xs) = pick (pre ++ concat (map logical Bs)) (map Z.to_nat (filter (fun z => Z.of_nat off <=? z)%Z idx)) /\
               (fk f = true \/ is_prim d = true -> Forall (fun x => adtype x = d) xs)).
Proof.
  intros Hfc Hft I Hs Hl. induction Bs as [|B Bs IH]; intros pre off Ho FW FD HP HI; cbn [map stream_take].
  - apply outc_ok. cbn [map concat length] in *. rewrite filter_false; [split; [reflexivity|intros _; constructor]|]. intros z Hz. specialize (HI z Hz). apply Z.leb_gt. lia.
  - inversion FW as [|? ? W1 W2]; subst. inversion FD as [|? ? D1 D2]; subst. cbn [map concat] in HP, HI. rewrite app_length, logical_length in HP, HI. cbn [bind].
    set (off := length pre) in *.
    rewrite (search_idx_ok p idx (Z.of_nat off)) by (first [exact Hs|apply int_range; [exact I|lia]]). rewrite (search_idx_ok p idx (Z.of_nat (off + alen B))) by (first [exact Hs|apply int_range; [exact I|lia]]). cbn [bind].
    assert (down (fun x => x <? Z.of_nat off)%Z) as Da by apply down_lt. assert (down (fun x => x <? Z.of_nat (off + alen B))%Z) as Db by apply down_lt.
    assert (forall x, (x <? Z.of_nat off)%Z = true -> (x <? Z.of_nat (off + alen B))%Z = true) as Dab by (intros x H; apply Z.ltb_lt in H; apply Z.ltb_lt; lia).
    pose proof (slice_idx_ok _ _ idx Da Db Hs Dab) as SL. set (part := filter (fun x => negb (x <? Z.of_nat off)%Z && (x <? Z.of_nat (off + alen B))%Z) idx) in SL.
    pose proof (filter_split_at (Z.of_nat off) (Z.of_nat (off + alen B)) idx Hs ltac:(lia)) as SP. fold part in SP.
    specialize (IH (pre ++ logical B) (off + alen B)). specialize (IH ltac:(rewrite app_length, logical_length; reflexivity) W2 D2).
    specialize (IH ltac:(lia)). specialize (IH ltac:(intros z Hz; specialize (HI z Hz); lia)). rewrite <- app_assoc in IH. cbn [map concat].
    destruct (Nat.eqb_spec (count (fun x => (x <? Z.of_nat off)%Z) idx) (count (fun x => (x <? Z.of_nat (off + alen B))%Z) idx)) as [E|NE].
    + assert (part = []) as PE. { rewrite <- E in SL. unfold slice_idx in SL. destruct (_ && _); [|discriminate SL]. assert (part = lslice idx (count (fun x => (x <? Z.of_nat off)%Z) idx) (count (fun x => (x <? Z.of_nat off)%Z) idx)) as -> by congruence.
        unfold lslice. rewrite Nat.sub_diag. reflexivity. }
      rewrite SP, PE. exact IH.
    + rewrite SL. cbn [bind].
      assert (forall z, In z part -> (Z.of_nat off <= z < Z.of_nat (off + alen B))%Z) as HPt.
      { intros z Hz. apply filter_In in Hz. destruct Hz as [_ Hz]. apply andb_true_iff in Hz. destruct Hz as [Z1 Z2]. apply negb_true_iff, Z.ltb_ge in Z1. apply Z.ltb_lt in Z2. lia. }
      assert (part <> []) as PN. { intros PE. destruct (lslice_counts _ _ idx Da Db Hs Dab) as [C1 C2]. fold part in C2. rewrite PE in C2. apply (f_equal (@length Z)) in C2. unfold lslice in C2. rewrite firstn_length, skipn_length in C2. cbn [length] in C2. pose proof (count_le (fun x => (x <? Z.of_nat (off + alen B))%Z) idx). lia. }
      rewrite subtract_idx_ok by (intros z Hz; specialize (HPt z Hz); apply int_range; [exact I|lia]). cbn [bind].
      eapply outc_bind; [apply (take_batch f p B _ (adtype B)); try assumption; try reflexivity|].
      * rewrite map_length. unfold part. pose proof (filter_sub (fun x => negb (x <? Z.of_nat off)%Z && (x <? Z.of_nat (off + alen B))%Z) idx). lia.
      * intros E0. apply map_eq_nil in E0. contradiction.
      * intros z Hz. apply in_map_iff in Hz. destruct Hz as (y & <- & Hy). specialize (HPt y Hy). lia.
      * intros x _ [L1 K1]. eapply outc_bind; [exact IH|]. intros xs _ [L2 K2]. apply outc_ok. cbn [map concat]. rewrite SP, map_app, pick_app, L2. split.
        { f_equal. rewrite L1. unfold pick. rewrite !map_map. apply map_ext_in. intros z Hz. specialize (HPt z Hz). rewrite app_nth2 by (fold off; lia). rewrite app_nth1 by (rewrite logical_length; fold off; lia). f_equal. fold off. lia. }
        { intros X. constructor; auto. }
Qed.

(** The TakeRows stream over any stream of arrays of one type gives the requested rows, in order, repeated rows included. *)
Theorem stream_take_takes_the_rows :
  forall f d p idx (Bs : list array),
  ArrWf.fc f = true -> ft f = true -> is_int p = true -> Forall (wf f) Bs -> Forall (fun B => adtype B = d) Bs ->
  sortedZ idx -> (Z.of_nat (length idx) <= pmax U64)%Z -> (Z.of_nat (length (concat (map logical Bs))) <= pmax p)%Z ->
  Forall (fun z => 0 <= z < Z.of_nat (length (concat (map logical Bs))))%Z idx ->
  (forall xs, take_stream p idx (map Ok Bs) = Ok xs ->
     spec_take (concat (map logical Bs)) (map Z.to_nat idx) = Some (concat (map logical xs)) /\
     (fk f = true \/ is_prim d = true -> Forall (fun x => adtype x = d) xs)) /\
  (fT f = true \/ (fN f = true /\ p = U64) -> exists xs, take_stream p idx (map Ok Bs) = Ok xs).
Proof.
  intros f d p idx Bs Hfc Hft I FW FD Hs Hl HP HI. rewrite Forall_forall in HI.
  rewrite spec_take_pick by (apply Forall_forall; intros i Hi; apply in_map_iff in Hi; destruct Hi as (z & <- & Hz); specialize (HI z Hz); lia).
  pose proof (stream_take_ok f d p idx Hfc Hft I Hs Hl Bs [] 0 eq_refl FW FD HP) as H.
  specialize (H ltac:(intros z Hz; specialize (HI z Hz); cbn [plus]; lia)). cbn [app] in H.
  rewrite (filter_true (fun z => Z.of_nat 0 <=? z)%Z idx) in H by (intros z Hz; specialize (HI z Hz); apply Z.leb_le; cbn; lia).
  unfold take_stream. destruct idx as [|z0 idx0]; [split; [intros xs E; assert (xs = []) as -> by congruence; split; [reflexivity|intros _; constructor]|eauto]|]. set (idx := z0 :: idx0) in *.
  assert (stat_sorted false idx = Some true) as -> by (unfold stat_sorted, idx; fold idx; f_equal; apply incr_sorted, Hs).
  assert (existsb (fun z => z <? 0)%Z idx = false) as ->.
  { destruct (existsb _ idx) eqn:E; [|reflexivity]. apply existsb_exists in E. destruct E as (z & Hz & E). specialize (HI z Hz). apply Z.ltb_lt in E. lia. }
  rewrite andb_false_r. split.
  - intros xs E. rewrite E in H. cbn [outc] in H. destruct H as [H1 H2]. rewrite H1. auto.
  - intros X. destruct (stream_take p idx 0 (map Ok Bs)); [eauto|contradiction (H X)|contradiction (H X)].
Qed.
Print Assumptions stream_take_takes_the_rows.
Example stream_take_runs :
  exists xs, take_stream U64 [0; 2; 2; 4]%Z (map Ok [APrim U8 [7; 8]%Z VNonNull; APrim U8 [] VNonNull; APrim U8 [9; 10; 11]%Z VNonNull]) = Ok xs /\
    concat (map logical xs) = [VInt 7; VInt 9; VInt 9; VInt 11].
Proof. eexists. split; vm_compute; reflexivity. Qed.

(** Row ids that are out of order, or negative, are an error. *)
Theorem stream_take_rejects :
  forall p idx bs, idx <> [] -> ~ sortedZ idx \/ (is_signed p = true /\ exists z, In z idx /\ (z < 0)%Z) -> take_stream p idx bs = Err.
Proof.
  intros p idx bs NE H. unfold take_stream. destruct idx as [|z0 idx0]; [contradiction|]. set (idx := z0 :: idx0) in *. change (stat_sorted false idx) with (Some (incr false idx)).
  destruct (incr false idx) eqn:E; [|reflexivity]. destruct H as [H|(S1 & z & Hz & Hn)]; [contradiction H; apply incr_sorted, E|].
  rewrite S1. rewrite (proj2 (existsb_exists _ _)) by (exists z; split; [exact Hz|apply Z.ltb_lt, Hn]). reflexivity.
Qed.
