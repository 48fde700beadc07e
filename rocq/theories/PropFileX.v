(** C37, C38, C39: the hypotheses of the file theorems are met by a concrete file. *)
From Verif Require Import Base Spec Arr ArrRead ArrWf ArrSlice IntEnc ArrOps OpsBase PropIntEnc Ipc PropIpc PropOps Layout LayoutRead LayoutWrite PropLayout PropFile.

(** * A footer codec *)
Definition put_list {A} (g : A -> list Z) (o : option (list A)) : list Z := match o with None => [0]%Z | Some l => 1%Z :: Z.of_nat (length l) :: flat_map g l end.
Definition put_pair (r : nat * nat) : list Z := [Z.of_nat (fst r); Z.of_nat (snd r)].
Fixpoint put_layout (l : layout) : list Z :=
  match l with
  | Lay id b c m => Z.of_nat id :: put_list put_pair b ++ put_list (fun x => [x]) m ++
      match c with None => [0]%Z | Some l => 1%Z :: Z.of_nat (length l) :: flat_map (fun g => g) (map put_layout l) end
  end.
Definition parser (A : Type) := list Z -> option (A * list Z).
Fixpoint get_n {A} (g : parser A) (n : nat) (l : list Z) : option (list A * list Z) :=
  match n with 0 => Some ([], l) | S k => match g l with Some (x, r) => match get_n g k r with Some (xs, r') => Some (x :: xs, r') | None => None end | None => None end end.
Definition get_list {A} (g : parser A) : parser (option (list A)) := fun l =>
  match l with
  | z :: r => if (z =? 0)%Z then Some (None, r) else match r with n :: r' => match get_n g (Z.to_nat n) r' with Some (x, q) => Some (Some x, q) | None => None end | [] => None end
  | [] => None
  end.
Definition get_z : parser Z := fun l => match l with z :: r => Some (z, r) | [] => None end.
Definition get_pair : parser (nat * nat) := fun l => match l with a :: b :: r => Some ((Z.to_nat a, Z.to_nat b), r) | _ => None end.
Fixpoint get_layout (fuel : nat) : parser layout := fun l =>
  match fuel, l with
  | S k, id :: r =>
      match get_list get_pair r with
      | Some (b, r) =>
          match get_list get_z r with
          | Some (m, r) => match get_list (get_layout k) r with Some (c, r) => Some (Lay (Z.to_nat id) b c m, r) | None => None end
          | None => None
          end
      | None => None
      end
  | _, _ => None
  end.
Section LayInd.
  Variable P : layout -> Prop.
  Hypothesis H : forall id b c m, (match c with Some l => Forall P l | None => True end) -> P (Lay id b c m).
  Fixpoint lay_ind' (l : layout) : P l :=
    match l with
    | Lay id b c m => H id b c m (match c with Some l => (fix go (l : list layout) : Forall P l := match l with [] => Forall_nil _ | x :: r => Forall_cons _ (lay_ind' x) (go r) end) l | None => I end)
    end.
End LayInd.
Fixpoint ldepth (l : layout) : nat := match l with Lay _ _ c _ => S (match c with Some l => list_max (map ldepth l) | None => 0 end) end.
Lemma get_n_ok {A} (g : parser A) (w : A -> list Z) : forall l rest, Forall (fun x => forall r, g (w x ++ r) = Some (x, r)) l -> get_n g (length l) (flat_map w l ++ rest) = Some (l, rest).
Proof. induction l as [|x l IH]; intros rest H; [reflexivity|]. inversion H; subst. cbn [length get_n flat_map]. rewrite <- app_assoc, H2, IH by assumption. reflexivity. Qed.
Lemma get_list_ok {A} (g : parser A) (w : A -> list Z) o rest : (forall l, o = Some l -> Forall (fun x => forall r, g (w x ++ r) = Some (x, r)) l) -> get_list g (put_list w o ++ rest) = Some (o, rest).
Proof. intros H. destruct o as [l|]; [|reflexivity]. unfold put_list, get_list. cbn [app]. change (1 =? 0)%Z with false. cbv iota. rewrite Nat2Z.id, get_n_ok by (apply H; reflexivity). reflexivity. Qed.
Lemma get_layout_ok : forall l fuel rest, ldepth l <= fuel -> get_layout fuel (put_layout l ++ rest) = Some (l, rest).
Proof.
  induction l as [id b c m IH] using lay_ind'. intros fuel rest D. destruct fuel as [|k]; [cbn [ldepth] in D; lia|]. cbn [put_layout app get_layout]. rewrite <- !app_assoc.
  rewrite get_list_ok by (intros l _; apply Forall_forall; intros [x y] _ r; unfold put_pair; cbn [fst snd app get_pair]; rewrite !Nat2Z.id; reflexivity).
  rewrite get_list_ok by (intros l _; apply Forall_forall; intros x _ r; reflexivity).
  assert (match c with None => [0]%Z | Some l => 1%Z :: Z.of_nat (length l) :: flat_map (fun g => g) (map put_layout l) end = put_list put_layout c) as -> by (destruct c as [l|]; [unfold put_list; rewrite flat_map_id; reflexivity|reflexivity]).
  rewrite get_list_ok; [rewrite Nat2Z.id; reflexivity|]. intros l ->. cbn [ldepth] in D. assert (list_max (map ldepth l) <= k) as D' by lia. apply list_max_le in D'. rewrite Forall_map in D'.
  apply Forall_forall. intros x Hx r. rewrite Forall_forall in IH, D'. apply IH; [exact Hx|apply D', Hx].
Qed.
Definition demo_fc : fcodec :=
  FCodec (fun x => Z.of_nat (snd x) :: Z.of_nat (ldepth (fst x)) :: put_layout (fst x))
         (fun l => match l with n :: d :: r => match get_layout (Z.to_nat d) r with Some (x, _) => Some (x, Z.to_nat n) | None => None end | _ => None end)
         (fun x => [Z.of_nat (fst x); Z.of_nat (snd x)] ++ zeros 30)
         (fun l => match l with a :: b :: _ => Some (Z.to_nat a, Z.to_nat b) | _ => None end).
Lemma demo_footer : footer_codec demo_fc.
Proof.
  split.
  - intros [x n] k _. cbn [f_enc f_dec demo_fc fst snd app]. rewrite Nat2Z.id, get_layout_ok by lia. rewrite Nat2Z.id. reflexivity.
  - intros s o _ _. split; [reflexivity|]. cbn [p_enc p_dec demo_fc fst snd app]. rewrite !Nat2Z.id. reflexivity.
Qed.
Lemma small_file_near fc file : length file <= initial_read_size -> schema_near fc file.
Proof.
  intros L desc H. unfold read_footer in H. destruct (length file <? 8); [discriminate|]. rewrite Nat.min_r in H by exact L. destruct (read_at file _ _) as [buf| |]; cbn [bind] in H; try discriminate.
  destruct (negb (zlist_eqb _ _)); [discriminate|]. destruct (negb (_ =? 1)%Z); [discriminate|]. destruct (_ <? 32); [discriminate|]. destruct (p_dec fc _) as [[a b]|]; [|discriminate].
  assert (desc = Desc a b buf (length file - length file)) as -> by congruence. cbn [d_off d_schema]. lia.
Qed.

(** * A file of two columns, three batches (one of them with a chunked column) in two calls *)
Definition u8s (l : list Z) := APrim U8 l VNonNull.
Definition demo_a : list array := [u8s []; u8s [1]; u8s [2; 3]; u8s []; u8s [4; 5; 6; 7]; u8s [8; 9; 10; 11; 12]]%Z.
Definition demo_b : list array := [u8s []; u8s []; u8s []; APrim I32 [10; 20; 30] (VBits [true; false; true]); APrim I32 [40; 50; 60; 70] VAllValid; APrim I32 [0; 0; 0; 0; 0] VAllInvalid]%Z.
Definition nth_arr (l : list array) (i : nat) := nth i l (ANull 0).
Definition demo_ns := [10; 20].
Definition demo_ts := [DPrim U8 false; DPrim I32 true].
Definition demo_calls : list (list array) :=
  [[AStruct demo_ns [AChunked (DPrim U8 false) [nth_arr demo_a 1; nth_arr demo_a 2]; nth_arr demo_b 3] 3 VNonNull;
    AStruct demo_ns [nth_arr demo_a 4; nth_arr demo_b 4] 4 VNonNull];
   [AStruct demo_ns [nth_arr demo_a 5; nth_arr demo_b 5] 5 VNonNull]].
Definition demo_ac : acodec := ACodec (fun a => Node (alen a) [] [] None []) (fun d n _ => Ok (nth_arr (match d with DPrim U8 _ => demo_a | _ => demo_b end) n)).
Definition demo_c : codec :=
  Codec (fun m => match m with MBatch _ n _ _ => [2 + Z.of_nat n] | _ => [1] end)%Z
        (fun l => match l with z :: _ => Some (if (z =? 1)%Z then MSchema (DStruct demo_ns demo_ts false) else MBatch (FNode (Z.to_nat (z - 2)) [] [] None []) (Z.to_nat (z - 2)) [] 0) | [] => None end).
Definition demo_f := Flags true true true true true true false true true false.

Lemma demo_chunk a : In a [nth_arr demo_a 1; nth_arr demo_a 2; nth_arr demo_a 4; nth_arr demo_a 5; nth_arr demo_b 3; nth_arr demo_b 4; nth_arr demo_b 5] -> chunk_fits demo_c demo_ac (fun _ => true) demo_f a.
Proof.
  intros H. assert (item_fits demo_c (IBatch (alen a) (a_ser demo_ac a))) as IFit.
  { split; [|split; [|exact I]].
    - intros k. change (msg_of (IBatch (alen a) (a_ser demo_ac a))) with (MBatch (FNode (alen a) [] [] None []) (alen a) [] 0). cbn [enc dec demo_c app]. rewrite (proj2 (Z.eqb_neq _ _)) by lia. replace (2 + Z.of_nat (alen a) - 2)%Z with (Z.of_nat (alen a)) by lia. rewrite Nat2Z.id. reflexivity.
    - change (Z.of_nat 1 + 68 <= 4294967296)%Z. lia. }
  split; [exact IFit|]. split; [reflexivity|]. exists a. cbn [In] in H.
  assert (forall p l v b, forallb (in_rangeb p) l = true -> vwf v b -> b = length l -> wf demo_f (APrim p l v)) as WP. { intros p l v b R V E. cbn [wf]. subst b. split; [|exact V]. apply Forall_forall. intros x Hx. apply in_rangeb_spec. rewrite forallb_forall in R. apply R, Hx. }
  assert (a_de demo_ac (adtype a) (alen a) (a_ser demo_ac a) = Ok a /\ wf demo_f a) as [X1 X2]; [|split; [exact X1|split; [exact X2|split; reflexivity]]].
  destruct H as [<-|[<-|[<-|[<-|[<-|[<-|[<-|[]]]]]]]]; (split; [reflexivity|]); eapply WP; try reflexivity; cbn; auto.
Qed.
Lemma demo_batch b : In b (concat demo_calls) -> batch_fits demo_c demo_ac (fun _ => true) demo_f demo_ns demo_ts b.
Proof.
  intros H.
  assert (forall a, In a [nth_arr demo_a 1; nth_arr demo_a 2; nth_arr demo_a 4; nth_arr demo_a 5; nth_arr demo_b 3; nth_arr demo_b 4; nth_arr demo_b 5] -> wf demo_f a) as W.
  { assert (forall p l v b, forallb (in_rangeb p) l = true -> vwf v b -> b = length l -> wf demo_f (APrim p l v)) as WP. { intros p l v b0 R V E. cbn [wf]. subst b0. split; [|exact V]. apply Forall_forall. intros x Hx. apply in_rangeb_spec. rewrite forallb_forall in R. apply R, Hx. }
    intros a Ha. cbn [In] in Ha. destruct Ha as [<-|[<-|[<-|[<-|[<-|[<-|[<-|[]]]]]]]]; eapply WP; try reflexivity; cbn; auto. }
  assert (wf demo_f (AChunked (DPrim U8 false) [nth_arr demo_a 1; nth_arr demo_a 2])) as WC.
  { assert (Forall (fun x => wf demo_f x /\ adtype x = DPrim U8 false) [nth_arr demo_a 1; nth_arr demo_a 2]) as F by (apply Forall_forall; intros x Hx; split; [apply W; cbn [In] in *; tauto|destruct Hx as [<-|[<-|[]]]; reflexivity]).
    set (xs := [nth_arr demo_a 1; nth_arr demo_a 2]) in *. assert (xs <> []) as XN by discriminate. assert (list_sum (map alen xs) = 3) as XL by reflexivity. clearbody xs. cbn [wf]. split; [apply (proj2 (wf_chunks_iff demo_f (DPrim U8 false) _)); exact F|]. split; [auto|]. split; [reflexivity|]. split; [auto|]. split; [auto|]. split; [auto|]. split; [intros _; rewrite XL; change (pmax U64) with 18446744073709551615%Z; lia|auto]. }
  cbn [concat demo_calls app In] in H. destruct H as [<-|[<-|[<-|[]]]]; (split; [apply wf_struct_iff; split; [reflexivity|]; split; [exact I|]; apply Forall_forall; intros x Hx; split; [destruct Hx as [<-|[<-|[]]]; first [exact WC|apply W; cbn [In]; tauto]|destruct Hx as [<-|[<-|[]]]; reflexivity]|]); (split; [reflexivity|]);
    (split; [eauto|]); apply Forall_forall; intros x Hx; apply demo_chunk; cbn [fields_of flat_map chunks_of nth_arr demo_a demo_b nth u8s app In] in *; tauto.
Qed.
Lemma demo_fits : file_fits demo_c demo_fc demo_ac (fun _ => true) demo_f demo_ns demo_ts (concat demo_calls).
Proof.
  split; [cbn; lia|]. split; [cbn; lia|]. split; [discriminate|]. split; [apply Forall_forall; intros b H; apply demo_batch, H|]. split.
  - apply Forall_forall. intros d Hd. cbn [In demo_ts] in Hd. destruct Hd as [<-|[<-|[]]]; unfold chunkable; repeat split; intros; try discriminate; auto.
  - split; [intros [|[|j]] H; [cbn; lia|cbn; lia|cbn in H; lia]|]. split; [intros k; reflexivity|apply demo_footer].
Qed.
Lemma demo_small : exists file, write_file demo_c demo_fc demo_ac (DStruct demo_ns demo_ts false) demo_calls = Ok file /\ (length file <=? 5000) = true.
Proof. eexists. split; [vm_compute; reflexivity|vm_compute; reflexivity]. Qed.

Theorem demo_filtered_scan :
  let q r := match r with VStruct [VInt z] => Z.odd z | _ => false end in
  exists file K, write_file demo_c demo_fc demo_ac (DStruct demo_ns demo_ts false) demo_calls = Ok file /\
  forall k fuel bfuel, K <= k -> K <= fuel -> K <= bfuel ->
  exists l, scan k fuel bfuel (Env demo_c demo_fc demo_ac (fun _ => true) file) 2 (PFlat [FIndex 1; FName 10]) (Some ([FName 10], fun a => Ok (map q (logical a)))) = Ok l /\
    concat (map logical l) = [VStruct [VInt 10; VInt 1]; VStruct [VInt 30; VInt 3]; VStruct [VInt 50; VInt 5]; VStruct [VInt 70; VInt 7]; VStruct [VNull; VInt 9]; VStruct [VNull; VInt 11]]%Z.
Proof.
  intros q. destruct demo_small as (file & W & L).
  assert (selects demo_ns (PFlat [FIndex 1; FName 10]) [1; 0]) as S1. { repeat constructor. intros j Hj. lia. }
  assert (selects demo_ns (PFlat [FName 10]) [0]) as S2. { repeat constructor. intros j Hj. lia. }
  assert (Z.of_nat 2 <= pmax U64)%Z as B. { change (pmax U64) with 18446744073709551615%Z. lia. }
  assert (forall j, (j + 1) * 2 < 12 -> exists i, j * 2 <= i < (j + 1) * 2 /\ q (proj_row [0] (nth i (concat (map logical (concat demo_calls))) VNull)) = true) as BL.
  { intros j Hj. exists (j * 2). split; [lia|]. assert (j < 5) as J by lia. destruct j as [|[|[|[|[|j]]]]]; try lia; reflexivity. }
  assert ([1; 0] <> []) as N1 by discriminate. assert ([0] <> []) as N2 by discriminate.
  assert (0 < 2) as B0 by lia.
  pose proof (filtered_scan_returns_the_matching_rows demo_c demo_fc demo_ac (fun _ => true) demo_f demo_ns demo_ts demo_calls 2 (PFlat [FIndex 1; FName 10]) [1; 0] [FName 10] [0] (fun a => Ok (map q (logical a))) q eq_refl eq_refl eq_refl eq_refl B0 B demo_fits S1 N1 S2 N2 (fun a _ _ => eq_refl)) as T.
  cbv zeta in T. change (length (concat (map logical (concat demo_calls)))) with 12 in T. specialize (T BL). destruct T as (file' & W' & H). rewrite W in W'. assert (file = file') as <- by congruence.
  assert (schema_near demo_fc file) as SN. { apply small_file_near. apply Nat.leb_le in L. unfold initial_read_size. apply Nat2Z.inj_le. rewrite Z2Nat.id by lia. lia. }
  destruct (H SN) as (K & H'). exists file, K. split; [exact W|]. intros k fuel bfuel A C D. destruct (H' k fuel bfuel A C D) as (l & E1 & E2). exists l. split; [exact E1|]. rewrite E2. reflexivity.
Qed.
Print Assumptions demo_filtered_scan.
