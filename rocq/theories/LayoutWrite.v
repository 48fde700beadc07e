(** Proofs about the file writer of Layout.v and about opening the files it writes (C36, C37, C38, C39). *)
From Verif Require Import Base Spec Arr ArrRead ArrWf ArrSlice IntEnc ArrOps OpsBase PropIntEnc Ipc PropIpc Layout LayoutRead.

Definition fields_of (b : array) : list array := match b with AStruct _ fls _ _ => fls | _ => [] end.
(** The chunks of each column, in the order of the batches. *)
Definition columns (m : nat) (bs : list array) : list (list array) := map (fun j => flat_map (fun b => chunks_of (nth j (fields_of b) (ANull 0))) bs) (seq 0 m).

Definition wok (w : writer) : Prop := w_pos w = length (w_out w) /\ length (w_out w) mod 64 = 0.
Lemma wok_put w b : wok w -> length b mod 64 = 0 -> wok (put w b).
Proof. intros [A B] H. split; unfold put; cbn; rewrite app_length; [congruence|]. apply mod_add64; assumption. Qed.
Lemma write_batch_ok c w n t : wok w -> write_batch c w n t = Ok (put w (item_bytes c (IBatch n t))).
Proof. intros [A B]. apply (write_item_ok c w (IBatch n t)). congruence. Qed.
Lemma write_schema_ok c w d : wok w -> write_message c w (MSchema d) = Ok (put w (item_bytes c (IDType d))).
Proof. intros [A B]. apply (write_item_ok c w (IDType d)). congruence. Qed.
Lemma item_big c i : 64 <= length (item_bytes c i).
Proof. unfold item_bytes. rewrite app_length. pose proof (header_big c i). lia. Qed.
Definition frame (b : list Z) : list Z := u32_le (as_u32 (aligned (4 + length b) - 4)) ++ b ++ zeros (aligned (4 + length b) - (4 + length b)).
Lemma frame_length b : length (frame b) = aligned (4 + length b).
Proof. unfold frame. rewrite !app_length, zeros_length. destruct (aligned_facts (4 + length b)). change (length (u32_le _)) with 4. lia. Qed.
Lemma write_fb_ok w b : wok w -> write_fb w b = Ok (put w (frame b)).
Proof.
  intros [P A]. unfold write_fb. destruct (aligned_facts (4 + length b)) as (H1 & H2 & H3). rewrite zeros_r_ok by lia. cbn [bind].
  rewrite !put_put. fold (frame b). unfold put at 1. cbn [w_pos]. rewrite frame_length, P. rewrite mod_add64 by auto. reflexivity.
Qed.

Section Writer.
  Variables (c : codec) (ac : acodec).
  Definition chunk_bytes (a : array) : list Z := item_bytes c (IBatch (alen a) (a_ser ac a)).
  Definition holds (out : list Z) (r : nat * nat) (a : array) : Prop :=
    fst r < snd r /\ snd r <= length out /\ firstn (snd r - fst r) (skipn (fst r) out) = chunk_bytes a.
  Lemma holds_app out x r a : holds out r a -> holds (out ++ x) r a.
  Proof.
    intros (A & B & C). split; [exact A|]. split; [rewrite app_length; lia|]. rewrite <- C, skipn_app, firstn_app, skipn_length.
    replace (snd r - fst r - (length out - fst r)) with 0 by lia. cbn [firstn]. apply app_nil_r.
  Qed.
  Lemma holds_all_app out x rs l : Forall2 (holds out) rs l -> Forall2 (holds (out ++ x)) rs l.
  Proof. induction 1; constructor; auto using holds_app. Qed.
  Lemma holds_new out a : holds (out ++ chunk_bytes a) (length out, length out + length (chunk_bytes a)) a.
  Proof.
    pose proof (item_big c (IBatch (alen a) (a_ser ac a))) as H. fold (chunk_bytes a) in H. split; [cbn; lia|]. cbn [fst snd]. split; [rewrite app_length; lia|].
    rewrite skipn_app, skipn_all, Nat.sub_diag. cbn [skipn app]. apply firstn_all2. lia.
  Qed.
  Fixpoint psums (n : nat) (cs : list array) : list nat := match cs with [] => [] | a :: r => (n + alen a) :: psums (n + alen a) r end.
  Lemma psums_app n a b : psums n (a ++ b) = psums n a ++ psums (n + row_count a) b.
  Proof. revert n; induction a as [|x a IH]; intros n; cbn [app psums]; [unfold row_count; cbn; rewrite Nat.add_0_r; reflexivity|]. rewrite IH. do 3 f_equal. change (row_count (x :: a)) with (alen x + row_count a). lia. Qed.
  Lemma psums_length n a : length (psums n a) = length a.
  Proof. revert n; induction a as [|x a IH]; intros n; cbn; [reflexivity|]. rewrite IH. reflexivity. Qed.
  Lemma psums_last n a d : last (n :: psums n a) d = n + row_count a.
  Proof.
    revert n; induction a as [|x a IH]; intros n; [cbn; lia|]. change (last (n :: psums n (x :: a)) d) with (last ((n + alen x) :: psums (n + alen x) a) d). rewrite IH.
    change (row_count (x :: a)) with (alen x + row_count a). lia.
  Qed.

  Lemma write_col_loop_ok : forall cs w n, wok w -> exists w' bo x, write_col_loop c ac w n cs = Ok (w', psums n cs, bo) /\ wok w' /\ w_out w' = w_out w ++ x /\
    Forall2 (holds (w_out w')) (pairs (w_pos w :: bo)) cs.
  Proof.
    induction cs as [|a r IH]; intros w n W; cbn [write_col_loop psums].
    - exists w, [], []. rewrite app_nil_r. split; [reflexivity|]. split; [exact W|]. split; [reflexivity|constructor].
    - rewrite write_batch_ok by exact W. fold (chunk_bytes a). cbn [bind]. assert (wok (put w (chunk_bytes a))) as W1 by (apply wok_put; [exact W|apply item_mod]).
      destruct (IH (put w (chunk_bytes a)) (n + alen a) W1) as (w' & bo & x & -> & W2 & O & H). cbn [bind]. exists w', (w_pos (put w (chunk_bytes a)) :: bo), (chunk_bytes a ++ x). split; [reflexivity|].
      split; [exact W2|]. cbn [put w_out w_pos] in O, H |- *. rewrite <- app_assoc in O. split; [exact O|]. unfold pairs in *. cbn [skipn combine]. constructor; [|exact H].
      rewrite O, app_assoc. apply holds_app. destruct W as [-> _]. apply holds_new.
  Qed.

  Definition col_inv (out : list Z) (o : offsets) (cs : list array) : Prop := o_rows o = 0 :: psums 0 cs /\ Forall2 (holds out) (flat_map pairs (o_bytes o)) cs.
  Lemma col_inv_app out x o cs : col_inv out o cs -> col_inv (out ++ x) o cs.
  Proof. intros [A B]. split; [exact A|]. apply holds_all_app, B. Qed.
  Lemma cols_inv_app out x o cs : Forall2 (col_inv out) o cs -> Forall2 (col_inv (out ++ x)) o cs.
  Proof. induction 1; constructor; auto using col_inv_app. Qed.

  Lemma chunks_old w pre o post cs cs' : wok w -> col_inv (w_out w) o cs ->
    exists w' o' x, write_column_chunks c ac w (pre ++ o :: post) (length pre) cs' = Ok (w', pre ++ o' :: post) /\ wok w' /\ w_out w' = w_out w ++ x /\ col_inv (w_out w') o' (cs ++ cs').
  Proof.
    intros W [R B]. unfold write_column_chunks. assert (nth_error (pre ++ o :: post) (length pre) = Some o) as -> by (rewrite nth_error_app2, Nat.sub_diag by lia; reflexivity).
    rewrite R. cbn [bind]. rewrite <- R. assert (last (o_rows o) 0 = row_count cs) as -> by (rewrite R; apply psums_last).
    destruct (write_col_loop_ok cs' w (row_count cs) W) as (w' & bo & x & -> & W2 & O & H). cbn [bind app].
    exists w', (Offs (o_rows o ++ psums (row_count cs) cs') (o_bytes o ++ [w_pos w :: bo])), x. split; [|split; [exact W2|split; [exact O|split; cbn [o_rows o_bytes]]]].
    - do 2 f_equal. apply nth_ext with (d := o) (d' := o).
      { rewrite list_set_length, !app_length. reflexivity. }
      intros j Hj. rewrite list_set_length, app_length in Hj. cbn [length] in Hj. rewrite nth_list_set by (rewrite app_length; cbn [length]; lia). destruct (Nat.eqb_spec j (length pre)) as [->|N].
      + rewrite app_nth2, Nat.sub_diag by lia. reflexivity.
      + destruct (Nat.lt_ge_cases j (length pre)); [rewrite !app_nth1 by lia; reflexivity|]. rewrite !app_nth2 by lia. destruct (j - length pre) as [|q] eqn:E; [lia|]. reflexivity.
    - rewrite R, psums_app. reflexivity.
    - rewrite flat_map_app. cbn [flat_map]. rewrite app_nil_r. apply Forall2_app; [|exact H]. rewrite O. apply holds_all_app, B.
  Qed.
  Lemma chunks_new w cols cs' : wok w ->
    exists w' o' x, write_column_chunks c ac w cols (length cols) cs' = Ok (w', cols ++ [o']) /\ wok w' /\ w_out w' = w_out w ++ x /\ col_inv (w_out w') o' cs'.
  Proof.
    intros W. unfold write_column_chunks. assert (nth_error cols (length cols) = None) as -> by (apply nth_error_None; lia). cbn [bind].
    destruct (write_col_loop_ok cs' w 0 W) as (w' & bo & x & -> & W2 & O & H). cbn [bind]. exists w', (Offs ([0] ++ psums 0 cs') [w_pos w :: bo]), x. split; [reflexivity|]. split; [exact W2|].
    split; [exact O|]. split; [reflexivity|]. cbn [o_bytes flat_map]. rewrite app_nil_r. exact H.
  Qed.

  Definition zipapp {A} (a b : list (list A)) : list (list A) := map (fun p => fst p ++ snd p) (combine a b).
  Lemma fields_old : forall fls w pre cur cpre ccur, wok w -> Forall2 (col_inv (w_out w)) pre cpre -> Forall2 (col_inv (w_out w)) cur ccur -> length fls = length cur ->
    exists w' cols x, write_fields c ac w (pre ++ cur) (length pre) fls = Ok (w', cols) /\ wok w' /\ w_out w' = w_out w ++ x /\ Forall2 (col_inv (w_out w')) cols (cpre ++ zipapp ccur (map chunks_of fls)).
  Proof.
    induction fls as [|a r IH]; intros w pre cur cpre ccur W HP HC HL.
    - destruct cur; [|discriminate HL]. inversion HC; subst. exists w, (pre ++ []), []. cbn. rewrite !app_nil_r. auto.
    - destruct cur as [|o cur]; [discriminate HL|]. inversion HC as [|? cs ? ccur' H1 H2]; subst. cbn [write_fields].
      destruct (chunks_old w pre o cur cs (chunks_of a) W H1) as (w' & o' & x & -> & W2 & O & H). cbn [bind].
      replace (pre ++ o' :: cur) with ((pre ++ [o']) ++ cur) by (rewrite <- app_assoc; reflexivity). replace (S (length pre)) with (length (pre ++ [o'])) by (rewrite app_length; cbn; lia).
      destruct (IH w' (pre ++ [o']) cur (cpre ++ [cs ++ chunks_of a]) ccur') as (w2 & cols & x2 & -> & W3 & O2 & H3); auto.
      { apply Forall2_app; [rewrite O; apply cols_inv_app; assumption|constructor; [exact H|constructor]]. } { rewrite O. apply cols_inv_app. assumption. }
      exists w2, cols, (x ++ x2). split; [reflexivity|]. split; [exact W3|]. split; [rewrite O2, O, app_assoc; reflexivity|]. unfold zipapp in *. cbn [map combine]. rewrite <- app_assoc in H3. exact H3.
  Qed.
  Lemma fields_new : forall fls w cols css, wok w -> Forall2 (col_inv (w_out w)) cols css ->
    exists w' cols' x, write_fields c ac w cols (length cols) fls = Ok (w', cols') /\ wok w' /\ w_out w' = w_out w ++ x /\ Forall2 (col_inv (w_out w')) cols' (css ++ map chunks_of fls).
  Proof.
    induction fls as [|a r IH]; intros w cols css W HC; cbn [write_fields].
    - exists w, cols, []. cbn. rewrite !app_nil_r. auto.
    - destruct (chunks_new w cols (chunks_of a) W) as (w' & o' & x & -> & W2 & O & H). cbn [bind]. replace (S (length cols)) with (length (cols ++ [o'])) by (rewrite app_length; cbn; lia).
      destruct (IH w' (cols ++ [o']) (css ++ [chunks_of a]) W2) as (w2 & cols' & x2 & -> & W3 & O2 & H3).
      { apply Forall2_app; [rewrite O; apply cols_inv_app; assumption|constructor; [exact H|constructor]]. }
      exists w2, cols', (x ++ x2). split; [reflexivity|]. split; [exact W3|]. split; [rewrite O2, O, app_assoc; reflexivity|]. cbn [map]. rewrite <- app_assoc in H3. exact H3.
  Qed.

  (** ** Batches *)
  Definition cols_now (m : nat) (bs : list array) : list (list array) := match bs with [] => [] | _ => columns m bs end.
  Definition linv (m : nat) (s : lwriter) (bs : list array) : Prop := wok (lw_w s) /\ lw_rows s = row_count bs /\ Forall2 (col_inv (w_out (lw_w s))) (lw_cols s) (cols_now m bs).
  Definition is_batch (m : nat) (b : array) : Prop := match b with AStruct _ fls _ _ => length fls = m | _ => False end.
  Lemma columns_one m b : length (fields_of b) = m -> columns m [b] = map chunks_of (fields_of b).
  Proof.
    intros H. unfold columns. apply nth_ext with (d := []) (d' := []); [rewrite !map_length, seq_length; congruence|]. intros i Hi. rewrite map_length, seq_length in Hi.
    rewrite (map_nth_lt _ _ 0 []) by (rewrite seq_length; exact Hi). rewrite seq_nth by exact Hi. cbn [flat_map plus]. rewrite app_nil_r. symmetry. apply map_nth_lt. lia.
  Qed.
  Lemma columns_snoc m bs b : length (fields_of b) = m -> zipapp (columns m bs) (map chunks_of (fields_of b)) = columns m (bs ++ [b]).
  Proof.
    intros H. rewrite <- columns_one with (m := m) by exact H. unfold zipapp, columns. induction (seq 0 m) as [|j l IH]; [reflexivity|]. cbn [map combine fst snd]. rewrite IH, flat_map_app. reflexivity.
  Qed.
  Lemma columns_length m bs : length (columns m bs) = m.
  Proof. unfold columns. rewrite map_length, seq_length. reflexivity. Qed.
  Lemma Forall2_len {A B} (R : A -> B -> Prop) l l' : Forall2 R l l' -> length l = length l'.
  Proof. induction 1; cbn; congruence. Qed.
  Lemma write_batches_ok m : forall bs s done, linv m s done -> Forall (is_batch m) bs ->
    exists s', write_batches c ac s bs = Ok s' /\ linv m s' (done ++ bs) /\ lw_dtype s' = lw_dtype s.
  Proof.
    induction bs as [|b r IH]; intros s done (W & R & H) HB; cbn [write_batches].
    - exists s. rewrite app_nil_r. split; [reflexivity|]. split; [split; auto|reflexivity].
    - inversion HB as [|? ? B1 B2]; subst. destruct b as [| | | | |ns fls n v| | | | | | | | | |]; try contradiction. cbn [is_batch] in B1.
      assert (exists w' cols x, write_fields c ac (lw_w s) (lw_cols s) 0 fls = Ok (w', cols) /\ wok w' /\ w_out w' = w_out (lw_w s) ++ x /\ Forall2 (col_inv (w_out w')) cols (columns m (done ++ [AStruct ns fls n v]))) as (w' & cols & x & -> & W2 & O & H2).
      { unfold cols_now in H. destruct done as [|b0 done].
        - inversion H as [E|]; subst. destruct (fields_new fls (lw_w s) [] [] W ltac:(constructor)) as (w' & cols' & x & E1 & E2 & E3 & E4). exists w', cols', x. cbn [length] in E1. split; [exact E1|]. split; [exact E2|]. split; [exact E3|].
          cbn [app] in *. rewrite columns_one by reflexivity. exact E4.
        - set (dn := b0 :: done) in *. clearbody dn. destruct (fields_old fls (lw_w s) [] (lw_cols s) [] (columns m dn) W ltac:(constructor) H) as (w' & cols' & x & E1 & E2 & E3 & E4).
          { rewrite B1, (Forall2_len _ _ _ H), columns_length. reflexivity. }
          exists w', cols', x. split; [exact E1|]. split; [exact E2|]. split; [exact E3|]. cbn [app] in E4. rewrite <- columns_snoc by exact B1. exact E4. }
      cbn [bind]. destruct (IH (LW w' (lw_rows s + n) (lw_dtype s) cols) (done ++ [AStruct ns fls n v])) as (s' & E & I & D); auto.
      { split; [exact W2|]. split; [|].
        - cbn [lw_rows]. rewrite R. unfold row_count. rewrite map_app, list_sum_app. cbn. lia.
        - cbn [lw_w lw_cols]. unfold cols_now. destruct (done ++ [AStruct ns fls n v]) eqn:E; [destruct done; discriminate E|exact H2]. }
      exists s'. split; [exact E|]. rewrite <- app_assoc in I. split; [exact I|exact D].
  Qed.

  (** ** Metadata *)
  Definition col_layout (out : list Z) (l : layout) (cs : list array) : Prop :=
    exists ml rs, l = lay_chunked (ml :: map lay_flat rs) true /\ Forall2 (holds out) rs cs.
  Lemma col_layout_app out x l cs : col_layout out l cs -> col_layout (out ++ x) l cs.
  Proof. intros (ml & rs & A & B). exists ml, rs. split; [exact A|]. apply holds_all_app, B. Qed.
  Lemma ranges_ok out rs cs : Forall2 (holds out) rs cs -> mapM (fun be => do x <- byte_range (fst be) (snd be); Ok (lay_flat x)) rs = Ok (map lay_flat rs).
  Proof.
    induction 1 as [|[b n] a rs cs (H & _) _ IH]; [reflexivity|]. cbn [mapM map fst snd] in *. unfold byte_range at 1. rewrite (proj2 (Nat.ltb_lt _ _)) by exact H. cbn [bind]. rewrite IH. reflexivity.
  Qed.
  Lemma write_metadata_ok : forall cols css w, wok w -> Forall2 (col_inv (w_out w)) cols css ->
    exists w' ls x, write_metadata c ac w cols = Ok (w', ls) /\ wok w' /\ w_out w' = w_out w ++ x /\ Forall2 (col_layout (w_out w')) ls css /\ (cols <> [] -> x <> []).
  Proof.
    induction cols as [|o r IH]; intros css w W H.
    - inversion H; subst. exists w, [], []. cbn. rewrite app_nil_r. split; [reflexivity|]. split; [exact W|]. split; [reflexivity|]. split; [constructor|congruence].
    - inversion H as [|? cs ? css' [R B] H2]; subst. cbn [write_metadata]. rewrite (ranges_ok _ _ _ B). cbn [bind]. rewrite R. cbn [length]. change (S (length (psums 0 cs)) =? 0) with false. cbn [Nat.sub].
      rewrite Nat.sub_0_r, psums_length. pose proof (Forall2_len _ _ _ B) as L.
      assert (length (firstn (length cs) (0 :: psums 0 cs)) = length cs) as L2 by (rewrite firstn_length; cbn [length]; rewrite psums_length; lia).
      rewrite map_length, L, L2, Nat.eqb_refl. cbn [negb].
      set (meta := AStruct [0] _ _ _). rewrite write_schema_ok by exact W. cbn [bind]. set (i1 := item_bytes c (IDType (adtype meta))).
      assert (wok (put w i1)) as W1 by (apply wok_put; [exact W|apply item_mod]). rewrite write_batch_ok by exact W1. cbn [bind]. set (i2 := item_bytes c (IBatch (length cs) (a_ser ac meta))).
      assert (wok (put (put w i1) i2)) as W2 by (apply wok_put; [exact W1|apply item_mod]).
      pose proof (item_big c (IDType (adtype meta))) as G1. pose proof (item_big c (IBatch (length cs) (a_ser ac meta))) as G2. fold i1 in G1. fold i2 in G2. 
      assert (forall a b, a < b -> byte_range a b = Ok (a, b)) as BR by (intros a b Hab; unfold byte_range; rewrite (proj2 (Nat.ltb_lt _ _) Hab); reflexivity).
      rewrite BR by (unfold put; cbn [w_pos]; lia). cbn [bind]. rewrite BR by (unfold put; cbn [w_pos]; lia). cbn [bind].
      destruct (IH css' (put (put w i1) i2) W2) as (w' & ls & x & -> & W3 & O & HL & _). { cbn [put w_out]. rewrite <- app_assoc. apply cols_inv_app. exact H2. }
      cbn [bind]. rewrite put_put in O. cbn [put w_out] in O. rewrite <- app_assoc in O. exists w'. eexists. exists ((i1 ++ i2) ++ x). split; [reflexivity|]. split; [exact W3|]. split; [exact O|]. split.
      + constructor; [|exact HL]. eexists. exists (flat_map pairs (o_bytes o)). split; [reflexivity|]. rewrite O. apply holds_all_app. exact B.
      + intros _ Z. apply (f_equal (@length _)) in Z. rewrite !app_length in Z. cbn in Z. lia.
  Qed.
End Writer.

(** * Reading a chunk back *)
Lemma array_from_bytes_ok e d n t : item_fits (e_c e) (IBatch n t) -> item_known (e_known e) (IBatch n t) ->
  array_from_bytes e d (item_bytes (e_c e) (IBatch n t)) = a_de (e_ac e) d n t.
Proof.
  intros (C & F & _) K. unfold array_from_bytes. set (c := e_c e) in *. set (i := IBatch n t) in *. set (un := 4 + length (enc c (msg_of i))) in *. destruct (aligned_facts un) as (H1 & H2 & _).
  assert (un = 4 + length (enc c (msg_of i))) as Hun by reflexivity.
  set (lb := u32_le (as_u32 (aligned un - 4))). assert (length lb = 4) as Hlb by reflexivity.
  assert (item_bytes c i = lb ++ loaded_msg c i ++ body i) as -> by (unfold item_bytes; rewrite header_split; fold un lb; rewrite <- app_assoc; reflexivity).
  assert (length (loaded_msg c i) = aligned un - 4) as Hm. { unfold loaded_msg. fold un. rewrite app_length, zeros_length. lia. }
  assert (forall a b : list Z, split_to (a ++ b) (length a) = Ok (a, b)) as SP.
  { intros a b. unfold split_to. rewrite (proj2 (Nat.ltb_ge _ _)) by (rewrite app_length; lia). rewrite firstn_app, skipn_app, firstn_all, skipn_all, Nat.sub_diag. cbn [firstn skipn app]. rewrite app_nil_r. reflexivity. }
  rewrite <- Hlb, SP. cbn [bind]. assert (le_u32 lb = Z.of_nat (aligned un - 4)) as ->. { unfold lb. rewrite as_u32_small by lia. apply u32_round. lia. }
  rewrite Nat2Z.id, <- Hm, SP. cbn [bind]. assert (dec c (loaded_msg c i) = Some (msg_of i)) as -> by apply C. unfold i at 1. cbn [msg_of]. unfold batch_msg.
  pose proof (split_ok (all_buffers t) 0 []) as S. destruct (buffer_table 0 (all_buffers t)) as [bt size]. destruct S as [S1 S2]. rewrite app_nil_r in S1. cbn [plus] in S2. cbn [body i].
  assert (split_to (flat_map padded (all_buffers t)) size = Ok (flat_map padded (all_buffers t), [])) as ->.
  { rewrite S2. pose proof (SP (flat_map padded (all_buffers t)) []) as Q. rewrite app_nil_r in Q. exact Q. }
  cbn [bind]. rewrite S1. cbn [bind]. unfold into_array. assert (e_known e (fb_enc (to_fb t 0)) = true) as -> by (destruct t; exact K). rewrite array_tree_round_trip. reflexivity.
Qed.

(** * Opening *)
Lemma skipn_4_header c i : skipn 4 (header c i) = loaded_msg c i.
Proof. rewrite header_split. reflexivity. Qed.
Lemma desc_slice_ok (file : list Z) off so fo b n : off <= b -> b + 4 <= n -> n <= length file ->
  desc_slice (Desc so fo (skipn off file) off) b n = Ok (firstn (n - b - 4) (skipn (b + 4) file)).
Proof.
  intros H1 H2 H3. unfold desc_slice. cbn [d_off d_read]. rewrite (proj2 (Nat.ltb_ge b off)) by lia. rewrite (proj2 (Nat.ltb_ge n off)) by lia. cbn [orb].
  rewrite skipn_length. rewrite (proj2 (Nat.ltb_ge (n - off) (b - off + 4))) by lia. rewrite (proj2 (Nat.ltb_ge (length file - off) (n - off))) by lia. cbn [orb].
  unfold lslice. rewrite skipn_plus. f_equal. f_equal; [lia|f_equal; lia].
Qed.
Lemma skipn_app_len {A} (a b : list A) n : skipn (length a + n) (a ++ b) = skipn n b.
Proof. rewrite skipn_app, skipn_all2 by lia. cbn [app]. f_equal. lia. Qed.
Lemma firstn_app_len {A} (a b : list A) n : n = length a -> firstn n (a ++ b) = a.
Proof. intros ->. rewrite firstn_app, firstn_all, Nat.sub_diag. cbn. apply app_nil_r. Qed.

(** The file: the chunks and the metadata, the schema, the footer, the postscript and the end marker. *)
Definition file_of (c : codec) (fc : fcodec) (out : list Z) (d : dtype) (x : layout * nat) : list Z :=
  (out ++ item_bytes c (IDType d) ++ frame (f_enc fc x)) ++ p_enc fc (length out, length out + length (item_bytes c (IDType d))) ++ eof_bytes.
Definition tail_fits (c : codec) (fc : fcodec) (d : dtype) (x : layout * nat) : Prop :=
  length (item_bytes c (IDType d)) + length (frame (f_enc fc x)) + 40 <= initial_read_size.

Lemma read_footer_ok c fc out d x : let so := length out in let fo := so + length (item_bytes c (IDType d)) in
  length (p_enc fc (so, fo)) = 32 -> p_dec fc (p_enc fc (so, fo)) = Some (so, fo) ->
  let file := file_of c fc out d x in
  exists off, read_footer fc file = Ok (Desc so fo (skipn off file) off) /\ off = length file - Nat.min initial_read_size (length file) /\
    length file = so + (length (item_bytes c (IDType d)) + length (frame (f_enc fc x)) + 40).
Proof.
  intros so fo P1 P2 file. set (S := item_bytes c (IDType d)) in *. set (Fr := frame (f_enc fc x)) in *.
  assert (length file = so + (length S + length Fr + 40)) as LF. { unfold file, file_of. fold S Fr. rewrite !app_length. fold so fo. rewrite P1. change (length eof_bytes) with 8. lia. }
  exists (length file - Nat.min initial_read_size (length file)). split; [|split; [reflexivity|exact LF]]. unfold read_footer. assert (40 <= initial_read_size) as I40 by (unfold initial_read_size; apply Nat2Z.inj_le; rewrite Z2Nat.id; lia).
  rewrite (proj2 (Nat.ltb_ge (length file) 8)) by lia. set (rs := Nat.min initial_read_size (length file)). assert (40 <= rs <= length file) as HR by (unfold rs; lia). clearbody rs.
  unfold read_at. rewrite (proj2 (Nat.ltb_ge _ _)) by lia. cbn [bind]. set (off := length file - rs). rewrite (firstn_all2 (n := rs)) by (rewrite skipn_length; lia).
  assert (forall j, j <= rs -> skipn j (skipn off file) = skipn (off + j) file) as SK by (intros j _; rewrite skipn_plus; reflexivity).
  assert (forall j, skipn (length file - 40 + j) file = skipn j (p_enc fc (so, fo) ++ eof_bytes)) as TL.
  { intros j. unfold file at 2. unfold file_of. fold S Fr. fold so fo. replace (length file - 40) with (length (out ++ S ++ Fr)) by (rewrite !app_length, LF; unfold so; lia). apply skipn_app_len. }
  rewrite SK by lia. replace (off + (rs - 8 + 4)) with (length file - 40 + (32 + 4)) by (unfold off; lia). rewrite TL, <- P1, skipn_app_len. cbn [skipn eof_bytes app].
  unfold zlist_eqb. destruct (list_eq_dec Z.eq_dec magic magic) as [_|N]; [|congruence]. cbn [negb].
  assert (forall j, nth (rs - 8 + j) (skipn off file) 0%Z = nth j eof_bytes 0%Z) as NT.
  { intros j. rewrite nth_skipn. replace (off + (rs - 8 + j)) with ((length file - 40 + 32) + j) by (unfold off; lia). rewrite <- nth_skipn, TL, <- P1. pose proof (skipn_app_len (p_enc fc (so, fo)) eof_bytes 0) as Q. rewrite Nat.add_0_r in Q. rewrite Q. reflexivity. }
  replace (nth (rs - 8) (skipn off file) 0%Z) with (nth 0 eof_bytes 0%Z) by (rewrite <- (NT 0), Nat.add_0_r; reflexivity). rewrite (NT 1). cbn [nth eof_bytes app]. change (negb (1 + 256 * 0 =? 1)%Z) with false. cbv iota.
  rewrite P1. rewrite (proj2 (Nat.ltb_ge (rs - 8) 32)) by lia. rewrite SK by lia. replace (off + (rs - 8 - 32)) with (length file - 40 + 0) by (unfold off; lia). rewrite TL. cbn [skipn].
  rewrite firstn_app_len by (symmetry; exact P1). rewrite P2. reflexivity.
Qed.
Lemma desc_ok c fc out d x off : let so := length out in let fo := so + length (item_bytes c (IDType d)) in
  let file := file_of c fc out d x in
  length (p_enc fc (so, fo)) = 32 -> decodes c (MSchema d) -> (forall k, f_dec fc (f_enc fc x ++ zeros k) = Some x) -> off <= so ->
  let desc := Desc so fo (skipn off file) off in desc_dtype c desc = Ok d /\ desc_layout fc desc = Ok x.
Proof.
  intros so fo file P1 D FD HO desc. set (S := item_bytes c (IDType d)) in *. set (Fr := frame (f_enc fc x)) in *.
  assert (length file = so + (length S + length Fr + 40)) as LF. { unfold file, file_of. fold S Fr. rewrite !app_length. fold so fo. rewrite P1. change (length eof_bytes) with 8. lia. }
  pose proof (item_big c (IDType d)) as G1. fold S in G1. split.
  - unfold desc_dtype, desc. cbn [d_schema d_footer]. rewrite desc_slice_ok by (unfold fo; lia). cbn [bind].
    assert (skipn (so + 4) file = loaded_msg c (IDType d) ++ (Fr ++ p_enc fc (so, fo) ++ eof_bytes)) as ->.
    { unfold file, file_of. fold S Fr. fold so fo. rewrite <- app_assoc. unfold so. rewrite skipn_app_len. unfold S. unfold item_bytes. cbn [body]. rewrite app_nil_r. rewrite <- !app_assoc. rewrite header_split, <- app_assoc. reflexivity. }
    rewrite firstn_app_len. 2:{ unfold fo, S, item_bytes. cbn [body]. rewrite app_nil_r, header_split, app_length. change (length (u32_le _)) with 4. lia. }
    pose proof (D (aligned (4 + length (enc c (MSchema d))) - (4 + length (enc c (MSchema d))))) as Q. unfold loaded_msg. cbn [msg_of]. rewrite Q. reflexivity.
  - unfold desc_layout, desc. cbn [d_schema d_footer d_read d_off]. rewrite skipn_length. rewrite (proj2 (Nat.ltb_ge (length file - off) 40)) by lia.
    assert (4 <= length Fr) as G2. { unfold Fr. rewrite frame_length. destruct (aligned_facts (4 + length (f_enc fc x))). lia. }
    rewrite desc_slice_ok by (unfold fo; lia). cbn [bind].
    assert (skipn (fo + 4) file = (f_enc fc x ++ zeros (aligned (4 + length (f_enc fc x)) - (4 + length (f_enc fc x)))) ++ (p_enc fc (so, fo) ++ eof_bytes)) as ->.
    { unfold file, file_of. fold S Fr. fold so fo. replace fo with (length (out ++ S)) at 1 by (rewrite app_length; reflexivity). rewrite (app_assoc out), <- (app_assoc (out ++ S)). rewrite skipn_app_len. unfold Fr, frame. rewrite <- !app_assoc. reflexivity. }
    rewrite firstn_app_len. 2:{ unfold fo. unfold Fr in LF. rewrite frame_length in LF. rewrite app_length, zeros_length. destruct (aligned_facts (4 + length (f_enc fc x))). lia. }
    rewrite FD. reflexivity.
Qed.
Lemma finalize_ok c fc ac s d css : wok (lw_w s) -> Forall2 (col_inv c ac (w_out (lw_w s))) (lw_cols s) css -> lw_dtype s = Some d ->
  exists out ls, finalize c fc ac s = Ok (file_of c fc out d (lay_column ls, lw_rows s)) /\ Forall2 (col_layout c ac out) ls css /\ (css <> [] -> 0 < length out).
Proof.
  intros W H D. unfold finalize. destruct (write_metadata_ok c ac (lw_cols s) css (lw_w s) W H) as (w' & ls & x & -> & W2 & O & HL & NE). cbn [bind]. rewrite D.
  rewrite write_schema_ok by exact W2. cbn [bind]. rewrite write_fb_ok by (apply wok_put; [exact W2|apply item_mod]). cbn [bind]. exists (w_out w'), ls. split; [|split; [exact HL|]].
  - f_equal. unfold file_of. cbn [put w_out w_pos]. destruct W2 as [-> _]. rewrite <- !app_assoc. reflexivity.
  - intros N. rewrite O, app_length. assert (lw_cols s <> []) as N2 by (intros Z; rewrite Z in H; inversion H; congruence). specialize (NE N2). destruct x; [congruence|]. cbn. lia.
Qed.
