(** C26: date-time parts (encodings/datetime-parts). *)
From Verif Require Import Base Spec SearchModel SearchProofs Arr ArrRead ArrWf ArrReadProofs ArrSearchProofs ArrSlice ArrSliceProofs ArrSliceMain
  ValidityModel PropValidity IntEnc PropIntEnc RunEnc PropRunEnc PropUnary PropDict ArrOps OpsBase OpsFlat OpsCanon OpsCanon2 OpsCanon3 OpsTake OpsVarBin OpsFilter OpsChunked OpsMain PropRead PropSlice PropOps.

(** * Model *)

(** TimeUnit, vortex-datetime-dtype/src/unit.rs. *)
Inductive time_unit := Ns | Us | Ms | Sec | Day.
(** The divisor, compress.rs:29-35, compute.rs:72-78, 109-115: day-level data is an error. *)
Definition divisor (u : time_unit) : result Z :=
  match u with Ns => Ok 1000000000 | Us => Ok 1000000 | Ms => Ok 1000 | Sec => Ok 1 | Day => Err end%Z.

(** DateTimePartsArray, array.rs:17-78: a timestamp data type (unit and nullability; the time zone is carried along unchanged and
    not modelled) and three children, themselves arrays of any encoding. *)
Record dtp := DTP { t_unit : time_unit; t_nl : bool; t_days : array; t_secs : array; t_subs : array }.

(** DateTimePartsArray::try_new, array.rs:35-78. *)
Definition is_int_dtype (d : dtype) : bool := match d with DPrim p _ => is_int p | _ => false end.
Definition try_dtp (u : time_unit) (nl : bool) (days secs subs : array) : result dtp :=
  if negb (is_int_dtype (adtype days)) || negb (Bool.eqb nl (nullable (adtype days))) then Err
  else if negb (is_int_dtype (adtype secs)) || nullable (adtype secs) then Err
  else if negb (is_int_dtype (adtype subs)) || nullable (adtype subs) then Err
  else if negb (alen days =? alen secs) || negb (alen days =? alen subs) then Err
  else Ok (DTP u nl days secs subs).

(** split_temporal, compress.rs:18-53, of a timestamp storage array: decoded, cast to i64 (values of all rows must fit; primitive
    cast.rs:9-61; storage of other types than integers is an error of the extension type), then truncating division. *)
Definition split_temporal (u : time_unit) (storage : array) : result (array * array * array) :=
  do (p, l, v) <- into_prim (canon storage);
  if negb (is_int p) || negb (forallb (in_rangeb I64) l) then Err
  else
    do dv <- divisor u;
    let day := (86400 * dv)%Z in
    Ok (APrim I64 (map (fun t => Z.quot t day) l) v,
        APrim I64 (map (fun t => Z.quot (Z.rem t day) dv) l) VNonNull,
        APrim I64 (map (fun t => Z.rem (Z.rem t day) dv) l) VNonNull).

(** i64 arithmetic: [chk] is whether overflow checks are on (a panic) or off (wrap-around). *)
Definition arith (chk : bool) (z : Z) : result Z := if in_rangeb I64 z then Ok z else if chk then Panic else Ok (wrap I64 z).
(** [d * 86_400 * divisor + s * divisor + ss], compute.rs:84 and 126. *)
Definition recombine (chk : bool) (dv d s ss : Z) : result Z :=
  do a <- arith chk (d * 86400); do a <- arith chk (a * dv); do b <- arith chk (s * dv); do c <- arith chk (a + b); arith chk (c + ss).

(** DateTimePartsArray::validity, array.rs:102-110. *)
Definition dtp_validity (a : dtp) : result validity :=
  if t_nl a then rmap into_validity (logical_validity (t_days a)) else Ok VNonNull.
Definition as_i64 (r : result (ptype * list Z * validity)) : result (list Z) :=
  do (p, l, _) <- r; if ptype_eqb p I64 then Ok l else Panic.
(** decode_to_temporal, compute.rs:100-134: the storage of the resulting timestamp array. zip_eq panics on different lengths. *)
Definition decode_temporal (chk : bool) (a : dtp) : result array :=
  do dv <- divisor (t_unit a);
  do d <- into_prim (canon (t_days a)); do s <- into_prim (canon (t_secs a)); do ss <- into_prim (canon (t_subs a));
  do dl <- as_i64 (Ok d); do sl <- as_i64 (Ok s); do ssl <- as_i64 (Ok ss);
  if negb (length dl =? length sl) || negb (length dl =? length ssl) then Panic
  else
    do l <- mapM (fun x => recombine chk dv (fst (fst x)) (snd (fst x)) (snd x)) (combine (combine dl sl) ssl);
    do v <- dtp_validity a; expect (try_prim I64 l v).

(** scalar_at, compute.rs:52-90, behind the bounds check of compute/unary/scalar_at.rs. *)
Definition int_value (x : value) : result Z := match x with VInt z => Ok z | _ => Err end.
Definition dtp_scalar_at (chk : bool) (a : dtp) (i : nat) : result value :=
  if alen (t_days a) <=? i then Err
  else
    do v <- dtp_validity a; do ok <- vvalid_r v i;
    if negb ok then Ok VNull
    else
      do dv <- divisor (t_unit a);
      do d <- scalar_at (t_days a) i; do d <- int_value d;
      do s <- scalar_at (t_secs a) i; do s <- int_value s;
      do ss <- scalar_at (t_subs a) i; do ss <- int_value ss;
      do t <- recombine chk dv d s ss; Ok (VInt t).

(** slice and take, compute.rs:28-50. *)
Definition dtp_slice (a : dtp) (i j : nat) : result dtp :=
  if slice_bad (alen (t_days a)) i j then Err
  else do d <- slice (t_days a) i j; do s <- slice (t_secs a) i j; do ss <- slice (t_subs a) i j; try_dtp (t_unit a) (t_nl a) d s ss.
Definition dtp_take (a : dtp) (ip : ptype) (idx : list nat) : result dtp :=
  do d <- take (t_days a) ip idx; do s <- take (t_secs a) ip idx; do ss <- take (t_subs a) ip idx; try_dtp (t_unit a) (t_nl a) d s ss.

(** * Specification: which timestamps a parts array stands for *)
Definition unit_per_second (u : time_unit) : option Z :=
  match u with Ns => Some 1000000000 | Us => Some 1000000 | Ms => Some 1000 | Sec => Some 1 | Day => None end%Z.
(** Row by row: null days are a null timestamp; otherwise days, seconds of the day and fraction add up to the timestamp, none of the
    parts pointing in the other direction. *)
Definition part_row (ups : Z) (d s ss t : value) : Prop :=
  match t with
  | VNull => d = VNull /\ exists y z, s = VInt y /\ ss = VInt z
  | VInt t => in_range I64 t /\ exists x y z, d = VInt x /\ s = VInt y /\ ss = VInt z /\
      (t = (x * 86400 + y) * ups + z)%Z /\
      ((0 <= t)%Z -> (0 <= x)%Z /\ (0 <= y)%Z /\ (0 <= z)%Z) /\ ((t <= 0)%Z -> (x <= 0)%Z /\ (y <= 0)%Z /\ (z <= 0)%Z)
  | _ => False
  end.
Definition parts_class (f : flags) (a : array) (n : bool) : Prop := wf f a /\ adtype a = DPrim I64 n.
Definition represents (f : flags) (a : dtp) (rows : list value) : Prop :=
  parts_class f (t_days a) (t_nl a) /\ parts_class f (t_secs a) false /\ parts_class f (t_subs a) false /\
  length (logical (t_days a)) = length rows /\ length (logical (t_secs a)) = length rows /\ length (logical (t_subs a)) = length rows /\
  exists ups, unit_per_second (t_unit a) = Some ups /\
  forall i, i < length rows -> part_row ups (nth i (logical (t_days a)) VNull) (nth i (logical (t_secs a)) VNull) (nth i (logical (t_subs a)) VNull) (nth i rows VNull).

(** * Proofs *)
Lemma divisor_ups u ups : unit_per_second u = Some ups -> divisor u = Ok ups /\ (0 < ups)%Z.
Proof. destruct u; intros [= <-]; split; try reflexivity; lia. Qed.


Lemma arith_ok chk z : in_range I64 z -> arith chk z = Ok z.
Proof. intros H. unfold arith. rewrite (proj2 (in_rangeb_spec _ _) H). reflexivity. Qed.
Lemma between_ok t z : in_range I64 t -> ((0 <= t)%Z -> (0 <= z <= t)%Z) -> ((t <= 0)%Z -> (t <= z <= 0)%Z) -> in_range I64 z.
Proof.
  unfold in_range. change (pmin I64) with (-9223372036854775808)%Z. change (pmax I64) with 9223372036854775807%Z. intros R P N.
  destruct (Z.le_gt_cases 0 t) as [H|H]; [specialize (P H)|specialize (N ltac:(lia))]; lia.
Qed.
Lemma recombine_ok chk ups d s ss t : in_range I64 t -> (0 < ups)%Z -> (t = (d * 86400 + s) * ups + ss)%Z ->
  ((0 <= t)%Z -> (0 <= d)%Z /\ (0 <= s)%Z /\ (0 <= ss)%Z) -> ((t <= 0)%Z -> (d <= 0)%Z /\ (s <= 0)%Z /\ (ss <= 0)%Z) ->
  recombine chk ups d s ss = Ok t.
Proof.
  intros R U E P N.
  assert (in_range I64 (d * 86400)) as R1.
  { apply (between_ok t); auto; intros H; [destruct (P H) as (A & B & C)|destruct (N H) as (A & B & C)]; nia. }
  assert (in_range I64 (d * 86400 * ups)) as R2.
  { apply (between_ok t); auto; intros H; [destruct (P H) as (A & B & C)|destruct (N H) as (A & B & C)]; nia. }
  assert (in_range I64 (s * ups)) as R3.
  { apply (between_ok t); auto; intros H; [destruct (P H) as (A & B & C)|destruct (N H) as (A & B & C)]; nia. }
  assert (in_range I64 (d * 86400 * ups + s * ups)) as R4.
  { apply (between_ok t); auto; intros H; [destruct (P H) as (A & B & C)|destruct (N H) as (A & B & C)]; nia. }
  unfold recombine. rewrite (arith_ok chk _ R1). cbn [bind]. rewrite (arith_ok chk _ R2). cbn [bind]. rewrite (arith_ok chk _ R3). cbn [bind]. rewrite (arith_ok chk _ R4). cbn [bind].
  assert (d * 86400 * ups + s * ups + ss = t)%Z as -> by (subst t; ring). apply arith_ok. exact R.
Qed.

Lemma quot_parts ups t : (0 < ups)%Z -> in_range I64 t ->
  let d := Z.quot t (86400 * ups) in let s := Z.quot (Z.rem t (86400 * ups)) ups in let ss := Z.rem (Z.rem t (86400 * ups)) ups in
  in_range I64 d /\ in_range I64 s /\ in_range I64 ss /\ (t = (d * 86400 + s) * ups + ss)%Z /\
  ((0 <= t)%Z -> (0 <= d)%Z /\ (0 <= s)%Z /\ (0 <= ss)%Z) /\ ((t <= 0)%Z -> (d <= 0)%Z /\ (s <= 0)%Z /\ (ss <= 0)%Z).
Proof.
  intros U R. cbv zeta. set (day := (86400 * ups)%Z). assert (0 < day)%Z as D by (unfold day; lia).
  pose proof (Z.quot_rem t day ltac:(lia)) as E1. pose proof (Z.quot_rem (Z.rem t day) ups ltac:(lia)) as E2.
  assert ((0 <= t)%Z -> (0 <= Z.quot t day)%Z /\ (0 <= Z.quot (Z.rem t day) ups)%Z /\ (0 <= Z.rem (Z.rem t day) ups)%Z) as P.
  { intros H. pose proof (Z.rem_nonneg t day ltac:(lia) H) as Q. split; [apply Z.quot_pos; lia|]. split; [apply Z.quot_pos; lia|]. apply Z.rem_nonneg; lia. }
  assert ((t <= 0)%Z -> (Z.quot t day <= 0)%Z /\ (Z.quot (Z.rem t day) ups <= 0)%Z /\ (Z.rem (Z.rem t day) ups <= 0)%Z) as N.
  { intros H. pose proof (Z.rem_nonpos t day ltac:(lia) H) as Q. split; [|split; [|apply Z.rem_nonpos; lia]].
    - pose proof (Z.quot_opp_l t day ltac:(lia)). pose proof (Z.quot_pos (- t) day ltac:(lia) D). lia.
    - pose proof (Z.quot_opp_l (Z.rem t day) ups ltac:(lia)). pose proof (Z.quot_pos (- Z.rem t day) ups ltac:(lia) U). lia. }
  assert (t = (Z.quot t day * 86400 + Z.quot (Z.rem t day) ups) * ups + Z.rem (Z.rem t day) ups)%Z as E.
  { rewrite E1 at 1. rewrite E2 at 1. unfold day at 1. ring. }
  clear E1 E2. set (d := Z.quot t day) in *. set (s := Z.quot (Z.rem t day) ups) in *. set (ss := Z.rem (Z.rem t day) ups) in *. clearbody d s ss.
  assert (in_range I64 d /\ in_range I64 s /\ in_range I64 ss) as (A & B & C).
  { split; [|split]; refine (between_ok t _ R _ _); intros H; (destruct (P H) as (A & B & C) || destruct (N H) as (A & B & C)); nia. }
  auto 10.
Qed.


Lemma canon_prim f a p n : wf f a -> fc f = true -> fC f = true -> adtype a = DPrim p n ->
  exists l v, into_prim (canon a) = Ok (p, l, v) /\ vnullable v = n /\ Forall (in_range p) l /\ vwf v (length l) /\ logical (APrim p l v) = logical a.
Proof.
  intros W C CC T. pose proof (g_canon _ _ (ops_correct (depth a) a (le_n _)) f W C) as H. fold (canon a) in H.
  pose proof (into_prim_ok_n f a _ p n H T) as H1. unfold outc in H1. destruct (into_prim _) as [x| |] eqn:E; [|contradiction (H1 CC)|contradiction (H1 CC)].
  destruct H1 as (l & v & -> & H2 & H3 & H4 & H5 & H6). exists l, v. auto 10.
Qed.
Lemma nth_prim p l v i : i < length l -> nth i (logical (APrim p l v)) VNull = if vvalid v i then VInt (nth i l 0%Z) else VNull.
Proof. intros H. cbn [logical]. rewrite nth_tab by exact H. reflexivity. Qed.
Lemma prim_len p l v : length (logical (APrim p l v)) = length l.
Proof. apply tab_length. Qed.

Lemma int_in_i64 p z : is_int p = true -> p <> U64 -> in_range p z -> in_range I64 z.
Proof. intros I N R. destruct p; try discriminate I; try congruence; unfold in_range in *; cbn in *; lia. Qed.

Lemma dtp_validity_ok f a : wf f (t_days a) -> fc f = true -> fC f = true -> fv f = true -> adtype (t_days a) = DPrim I64 (t_nl a) ->
  exists v, dtp_validity a = Ok v /\ vwf v (alen (t_days a)) /\ vnullable v = t_nl a /\
    forall i, i < alen (t_days a) -> vvalid v i = negb (is_null (nth i (logical (t_days a)) VNull)).
Proof.
  intros W C CC FV T. unfold dtp_validity. destruct (t_nl a) eqn:N.
  - assert (nullable (adtype (t_days a)) = true) as N' by (rewrite T; reflexivity).
    destruct (logical_validity_is_nullness f _ W C FV N') as [H1 H2]. destruct (H2 CC) as (l & E). rewrite E. cbn [rmap]. eexists. split; [reflexivity|].
    specialize (H1 l E). destruct (validity_into_validity l) as [A B].
    assert (llen l = alen (t_days a)) as LL by (rewrite <- lbuf_length, H1, map_length; apply logical_length). rewrite LL in *.
    split; [exact A|]. split; [destruct l; reflexivity|]. intros i Hi. rewrite <- (nth_vbits (into_validity l) _ i false Hi), B, H1.
    apply (map_nth_lt (fun x => negb (is_null x)) _ VNull). rewrite logical_length. exact Hi.
  - eexists. split; [reflexivity|]. split; [exact I|]. split; [reflexivity|]. intros i Hi. cbn [vvalid].
    pose proof (nonnull_logical f _ W ltac:(rewrite T; reflexivity)) as NN. unfold non_null in NN. 
    pose proof (Forall_nth_lt _ _ VNull i NN ltac:(rewrite logical_length; exact Hi)) as X. cbv beta in X. destruct (nth i _ VNull); try reflexivity. congruence.
Qed.

(** * Theorems *)

(** Splitting gives parts that stand for exactly the given timestamps, whatever the integer type and encoding of the storage. *)
Theorem split_gives_the_parts :
  forall (f : flags) (u : time_unit) (ups : Z) (a : array) (p : ptype) (n : bool),
  wf f a -> fc f = true -> fC f = true -> adtype a = DPrim p n -> is_int p = true -> p <> U64 -> unit_per_second u = Some ups ->
  exists d s ss b, split_temporal u a = Ok (d, s, ss) /\ try_dtp u n d s ss = Ok b /\
    (forall g, represents g b (logical a)) /\
    (forall chk, exists r, decode_temporal chk b = Ok r /\ logical r = logical a /\ adtype r = DPrim I64 n).
Proof.
  intros f u ups a p n W C CC T Ip NU U. destruct (canon_prim f a p n W C CC T) as (l & v & E & Hn & R & V & L).
  destruct (divisor_ups u ups U) as [D Pu].
  assert (Forall (in_range I64) l) as R64. { eapply Forall_impl; [|exact R]. intros z Hz. cbv beta in Hz. apply (int_in_i64 p); auto. }
  assert (forallb (in_rangeb I64) l = true) as RB. { apply forallb_forall. intros z Hz. apply in_rangeb_spec. rewrite Forall_forall in R64. auto. }
  unfold split_temporal. rewrite E. cbn [bind]. rewrite Ip, RB, D. cbn [negb orb bind].
  set (day := (86400 * ups)%Z). set (fd := fun t => Z.quot t day). set (fs_ := fun t => Z.quot (Z.rem t day) ups). set (fss := fun t => Z.rem (Z.rem t day) ups).
  assert (forall z, in_range I64 z -> in_range I64 (fd z) /\ in_range I64 (fs_ z) /\ in_range I64 (fss z)) as RR.
  { intros z Hz. destruct (quot_parts ups z Pu Hz) as (A & B & D' & _). auto. }
  exists (APrim I64 (map fd l) v), (APrim I64 (map fs_ l) VNonNull), (APrim I64 (map fss l) VNonNull).
  unfold try_dtp. cbn [adtype is_int_dtype is_int negb orb nullable vnullable alen]. rewrite Hn, Bool.eqb_reflx, !map_length, Nat.eqb_refl. cbn [negb orb].
  eexists. split; [reflexivity|]. split; [reflexivity|]. split.
  - intros g. unfold represents, parts_class. cbn [t_days t_secs t_subs t_nl t_unit]. rewrite <- L, !prim_len, !map_length.
    assert (forall h, (forall z, in_range I64 z -> in_range I64 (h z)) -> Forall (in_range I64) (map h l)) as FM.
    { intros h Hh. apply Forall_map. eapply Forall_impl; [|exact R64]. intros z Hz. cbv beta in *. auto. }
    split. { split; [|cbn [adtype]; rewrite Hn; reflexivity]. split; [apply FM; intros z Hz; apply RR; exact Hz|rewrite map_length; exact V]. }
    split. { split; [|reflexivity]. split; [apply FM; intros z Hz; apply RR; exact Hz|exact I]. }
    split. { split; [|reflexivity]. split; [apply FM; intros z Hz; apply RR; exact Hz|exact I]. }
    split; [reflexivity|]. split; [reflexivity|]. split; [reflexivity|]. exists ups. split; [exact U|]. intros i Hi.
    rewrite !nth_prim by (rewrite ?map_length; exact Hi). rewrite !(map_nth_lt _ _ 0%Z) by exact Hi. cbn [vvalid].
    destruct (vvalid v i); cbn [part_row]; [|eauto].
    pose proof (Forall_nth_lt _ _ 0%Z i R64 Hi) as Rz. cbv beta in Rz. split; [exact Rz|]. destruct (quot_parts ups _ Pu Rz) as (_ & _ & _ & Q1 & Q2 & Q3).
    do 3 eexists. do 3 (split; [reflexivity|]). auto.
  - intros chk. unfold decode_temporal. cbn [t_days t_secs t_subs t_unit t_nl dtp_validity].
    rewrite D. cbn [bind].
    assert (forall q w, into_prim (canon (APrim I64 q w)) = Ok (I64, q, w)) as CP by reflexivity.
    rewrite !CP. cbn [bind as_i64]. change (ptype_eqb I64 I64) with true. cbn [bind]. rewrite !map_length, Nat.eqb_refl. cbn [negb orb].
    assert (mapM (fun x => recombine chk ups (fst (fst x)) (snd (fst x)) (snd x)) (combine (combine (map fd l) (map fs_ l)) (map fss l)) = Ok l) as EM.
    { clear - R64 Pu. induction R64 as [|z l Hz R64 IH]; [reflexivity|]. cbn [map combine mapM fst snd].
      destruct (quot_parts ups z Pu Hz) as (_ & _ & _ & Q1 & Q2 & Q3). fold day in Q1, Q2, Q3.
      change (Z.quot z day) with (fd z) in *. change (Z.quot (Z.rem z day) ups) with (fs_ z) in *. change (Z.rem (Z.rem z day) ups) with (fss z) in *.
      rewrite (recombine_ok chk ups _ _ _ z Hz Pu Q1 Q2 Q3). cbn [bind]. rewrite IH. reflexivity. }
    rewrite EM. cbn [bind]. unfold dtp_validity. cbn [t_nl t_days].
    destruct (dtp_validity_ok (Flags true true true true true true true true true true) (DTP u n (APrim I64 (map fd l) v) (APrim I64 (map fs_ l) VNonNull) (APrim I64 (map fss l) VNonNull))) as (v' & E1 & E2 & E3 & E4); try reflexivity.
    { split; [apply Forall_map; eapply Forall_impl; [|exact R64]; intros z Hz; apply RR; exact Hz|rewrite map_length; exact V]. }
    { cbn [adtype t_days t_nl]. rewrite Hn. reflexivity. }
    cbn [t_days t_nl alen] in E2, E3, E4. rewrite map_length in E2, E4. unfold dtp_validity in E1. cbn [t_days t_nl] in E1.
    rewrite E1. cbn [bind]. unfold try_prim. rewrite (proj2 (vfits_vwf _ _) E2). cbn [expect]. eexists. split; [reflexivity|].
    split; [|cbn [adtype]; rewrite E3; reflexivity]. rewrite <- L. cbn [logical]. apply tab_ext. intros i Hi. rewrite E4 by exact Hi. rewrite nth_prim by (rewrite map_length; exact Hi). destruct (vvalid v i); reflexivity.
Qed.
Print Assumptions split_gives_the_parts.

(** Day-level data is rejected. *)
Theorem split_rejects_days : forall (a : array), ~ exists r, split_temporal Day a = Ok r.
Proof.
  intros a [r H]. unfold split_temporal in H. destruct (into_prim (canon a)) as [[[p l] v]| |]; try discriminate H. cbn [bind] in H.
  destruct (_ || _); discriminate H.
Qed.
Print Assumptions split_rejects_days.

(** Reading one row of a parts array whose children are of any encoding gives that row's timestamp; out of range is an error. *)
Theorem parts_scalar_at_is_the_row :
  forall (f : flags) (chk : bool) (a : dtp) (rows : list value), represents f a rows -> fc f = true -> fC f = true -> fv f = true ->
  (forall i, i < length rows -> dtp_scalar_at chk a i = Ok (nth i rows VNull)) /\
  (forall i, length rows <= i -> dtp_scalar_at chk a i = Err).
Proof.
  intros f chk a rows ((Wd & Td) & (Ws & Ts) & (Wss & Tss) & Ld & Ls & Lss & ups & U & H) C CC FV. destruct (divisor_ups _ _ U) as [D Pu].
  destruct (dtp_validity_ok f a Wd C CC FV Td) as (v & E & V & _ & VV). pose proof (logical_length (t_days a)) as LD. rewrite Ld in LD.
  unfold dtp_scalar_at. split; intros i Hi.
  - rewrite (proj2 (Nat.leb_gt _ _)) by lia. rewrite E. cbn [bind]. rewrite (vvalid_r_ok v (alen (t_days a)) i V) by lia. cbn [bind]. rewrite VV by lia.
    specialize (H i Hi). destruct (nth i rows VNull) as [|b|z|s|l] eqn:EN; cbn [part_row] in H; try contradiction.
    + destruct H as (-> & _). reflexivity.
    + destruct H as (Rz & x & y & w & Ex & Ey & Ew & Q1 & Q2 & Q3). rewrite Ex. cbn [is_null negb]. rewrite D. cbn [bind].
      rewrite (proj1 (scalar_at_is_the_element f _ Wd) i) by lia. rewrite Ex. cbn [bind int_value].
      rewrite (proj1 (scalar_at_is_the_element f _ Ws) i) by lia. rewrite Ey. cbn [bind int_value].
      rewrite (proj1 (scalar_at_is_the_element f _ Wss) i) by lia. rewrite Ew. cbn [bind int_value].
      rewrite (recombine_ok chk ups x y w z Rz Pu Q1 Q2 Q3). reflexivity.
  - rewrite (proj2 (Nat.leb_le _ _)) by lia. reflexivity.
Qed.
Print Assumptions parts_scalar_at_is_the_row.

Lemma arith_wraps z : exists r, arith false z = Ok r /\ in_range I64 r.
Proof. unfold arith. destruct (in_rangeb I64 z) eqn:E; [exists z; split; [reflexivity|apply in_rangeb_spec; exact E]|]. exists (wrap I64 z). split; [reflexivity|]. apply wrap_in_range. Qed.
Lemma recombine_wraps ups d s ss : exists r, recombine false ups d s ss = Ok r /\ in_range I64 r.
Proof.
  unfold recombine. destruct (arith_wraps (d * 86400)) as (a & -> & _). cbn [bind]. destruct (arith_wraps (a * ups)) as (b & -> & _). cbn [bind].
  destruct (arith_wraps (s * ups)) as (c & -> & _). cbn [bind]. destruct (arith_wraps (b + c)) as (e & -> & _). cbn [bind]. apply arith_wraps.
Qed.

(** Decoding a whole parts array (children of any encoding) gives the timestamps. Arithmetic overflow can only happen on null rows:
    this is the build without overflow checks; with checks, see [decode_panics_on_garbage_under_nulls_refuted]. *)
Theorem parts_decode_to_the_rows :
  forall (f : flags) (a : dtp) (rows : list value), represents f a rows -> fc f = true -> fC f = true -> fv f = true ->
  exists r, decode_temporal false a = Ok r /\ logical r = rows /\ adtype r = DPrim I64 (t_nl a) /\ forall g, wf g r.
Proof.
  intros f a rows ((Wd & Td) & (Ws & Ts) & (Wss & Tss) & Ld & Ls & Lss & ups & U & H) C CC FV. destruct (divisor_ups _ _ U) as [D Pu].
  destruct (dtp_validity_ok f a Wd C CC FV Td) as (v & E & V & VN & VV). pose proof (logical_length (t_days a)) as LD. rewrite Ld in LD.
  destruct (canon_prim f _ I64 _ Wd C CC Td) as (dl & dv & E1 & _ & _ & _ & D1).
  destruct (canon_prim f _ I64 _ Ws C CC Ts) as (sl & sv & E2 & N2 & _ & _ & D2).
  destruct (canon_prim f _ I64 _ Wss C CC Tss) as (tl & tv & E3 & N3 & _ & _ & D3).
  assert (length dl = length rows) as L1 by (rewrite <- Ld, <- D1, prim_len; reflexivity).
  assert (length sl = length rows) as L2 by (rewrite <- Ls, <- D2, prim_len; reflexivity).
  assert (length tl = length rows) as L3 by (rewrite <- Lss, <- D3, prim_len; reflexivity).
  unfold decode_temporal. rewrite D, E1, E2, E3. cbn [bind as_i64]. change (ptype_eqb I64 I64) with true. cbn [bind]. rewrite L1, L2, L3, Nat.eqb_refl. cbn [negb orb].
  set (g := fun x : Z * Z * Z => match recombine false ups (fst (fst x)) (snd (fst x)) (snd x) with Ok z => z | _ => 0%Z end).
  set (cl := combine (combine dl sl) tl).
  assert (mapM (fun x => recombine false ups (fst (fst x)) (snd (fst x)) (snd x)) cl = Ok (map g cl)) as EM.
  { apply mapM_ok_map. intros x _. unfold g. destruct (recombine_wraps ups (fst (fst x)) (snd (fst x)) (snd x)) as (r & -> & _). reflexivity. }
  rewrite EM. cbn [bind]. rewrite E. cbn [bind]. assert (length (map g cl) = length rows) as LM by (unfold cl; rewrite map_length, !combine_length; lia).
  unfold try_prim. rewrite LM. rewrite (proj2 (vfits_vwf v _)) by (rewrite LD; exact V). cbn [expect]. eexists. split; [reflexivity|]. split; [|split].
  - apply (nth_ext_len _ _ VNull); [rewrite prim_len; exact LM|]. rewrite prim_len, LM. intros i Hi. rewrite nth_prim by lia. rewrite VV by lia.
    specialize (H i Hi). rewrite (map_nth_lt g cl ((0, 0), 0)%Z) by (unfold cl; rewrite !combine_length; lia). unfold cl. rewrite combine_nth by (rewrite combine_length; lia). rewrite combine_nth by lia.
    rewrite <- D1, <- D2, <- D3 in H. rewrite !nth_prim in H by lia. rewrite <- D1, nth_prim by lia.
    assert (vvalid sv i = true) as Vs by (destruct sv; try discriminate N2; reflexivity). assert (vvalid tv i = true) as Vt by (destruct tv; try discriminate N3; reflexivity). rewrite Vs, Vt in H.
    destruct (vvalid dv i) eqn:Vd; cbn [is_null negb].
    + destruct (nth i rows VNull) as [|b|z|s|l]; cbn [part_row] in H; try contradiction; [destruct H as (H & _); discriminate H|].
      destruct H as (Rz & x & y & w & Ex & Ey & Ew & Q1 & Q2 & Q3). injection Ex as Ex. injection Ey as Ey. injection Ew as Ew. unfold g. cbn [fst snd]. rewrite Ex, Ey, Ew, (recombine_ok false ups x y w z Rz Pu Q1 Q2 Q3). reflexivity.
    + destruct (nth i rows VNull) as [|b|z|s|l]; cbn [part_row] in H; try contradiction; [reflexivity|]. destruct H as (_ & x & y & w & Ex & _). discriminate Ex.
  - cbn [adtype]. rewrite VN. reflexivity.
  - intros g'. split; [|rewrite LM, LD; exact V]. apply Forall_map. apply Forall_forall. intros x _. unfold g. destruct (recombine_wraps ups (fst (fst x)) (snd (fst x)) (snd x)) as (r & -> & Hr). exact Hr.
Qed.
Print Assumptions parts_decode_to_the_rows.

(** The children may be re-encoded (compressed) in any way that keeps their rows and type. *)
Theorem parts_may_be_recompressed :
  forall (f g : flags) (a : dtp) (rows : list value) (d s ss : array), represents f a rows ->
  wf g d -> wf g s -> wf g ss -> adtype d = adtype (t_days a) -> adtype s = adtype (t_secs a) -> adtype ss = adtype (t_subs a) ->
  logical d = logical (t_days a) -> logical s = logical (t_secs a) -> logical ss = logical (t_subs a) ->
  exists b, try_dtp (t_unit a) (t_nl a) d s ss = Ok b /\ represents g b rows.
Proof.
  intros f g a rows d s ss ((Wd & Td) & (Ws & Ts) & (Wss & Tss) & Ld & Ls & Lss & ups & U & H) W1 W2 W3 T1 T2 T3 L1 L2 L3.
  unfold try_dtp. rewrite T1, T2, T3, Td, Ts, Tss. cbn [is_int_dtype is_int negb orb nullable]. rewrite Bool.eqb_reflx. cbn [negb orb].
  rewrite <- !logical_length, L1, L2, L3, Ld, Ls, Lss, Nat.eqb_refl. cbn [negb orb]. eexists. split; [reflexivity|].
  unfold represents, parts_class. cbn [t_days t_secs t_subs t_nl t_unit]. rewrite L1, L2, L3, T1, T2, T3. repeat (split; [auto|]). exists ups. auto.
Qed.
Print Assumptions parts_may_be_recompressed.

(** Slicing the parts slices the timestamps. *)
Theorem parts_slice_the_rows :
  forall (f : flags) (a : dtp) (rows : list value) (i j : nat), represents f a rows -> i <= j -> j <= length rows -> (fs f = true \/ (fn f = true /\ i < j)) ->
  exists b, dtp_slice a i j = Ok b /\ represents f b (spec_slice rows i j).
Proof.
  intros f a rows i j ((Wd & Td) & (Ws & Ts) & (Wss & Tss) & Ld & Ls & Lss & ups & U & H) Hij Hj FS. pose proof (logical_length (t_days a)) as LD. rewrite Ld in LD.
  unfold dtp_slice. unfold slice_bad. rewrite <- LD. rewrite !(proj2 (Nat.ltb_ge _ _)) by lia. cbn [orb].
  destruct (slice_commutes_with_decoding f _ i j Wd Hij ltac:(lia) FS) as (d & E1 & Wd' & Td' & Ad & D1).
  destruct (slice_commutes_with_decoding f _ i j Ws Hij ltac:(lia) FS) as (s & E2 & Ws' & Ts' & As & D2).
  destruct (slice_commutes_with_decoding f _ i j Wss Hij ltac:(lia) FS) as (ss & E3 & Wss' & Tss' & Ass & D3).
  rewrite E1, E2, E3. cbn [bind]. unfold try_dtp. rewrite Td', Ts', Tss', Td, Ts, Tss, Ad, As, Ass, Nat.eqb_refl. cbn [is_int_dtype is_int negb orb nullable]. rewrite Bool.eqb_reflx. cbn [negb orb].
  eexists. split; [reflexivity|]. unfold represents, parts_class. cbn [t_days t_secs t_subs t_nl t_unit]. rewrite Td', Ts', Tss', D1, D2, D3.
  assert (forall l : list value, length l = length rows -> length (spec_slice l i j) = j - i) as LS by (intros l Hl; unfold spec_slice; rewrite firstn_length, skipn_length; lia).
  rewrite !LS by auto. do 6 (split; [auto|]). exists ups. split; [exact U|]. intros k Hk.
  assert (forall l : list value, nth k (spec_slice l i j) VNull = nth (i + k) l VNull) as NS by (intros l; unfold spec_slice; rewrite nth_firstn by exact Hk; apply nth_skipn).
  rewrite !NS. apply H. lia.
Qed.
Print Assumptions parts_slice_the_rows.

(** Taking rows of the parts takes those timestamps. *)
Theorem parts_take_the_rows :
  forall (f : flags) (a : dtp) (rows : list value) (ip : ptype) (idx : list nat), represents f a rows -> fc f = true -> ft f = true -> is_int ip = true ->
  (Z.of_nat (length idx) <= pmax U64)%Z -> Forall (fun i => i < length rows) idx -> fT f = true \/ (fN f = true /\ idx <> [] /\ ip = U64) ->
  exists b rows', dtp_take a ip idx = Ok b /\ spec_take rows idx = Some rows' /\ represents (pf f) b rows'.
Proof.
  intros f a rows ip idx ((Wd & Td) & (Ws & Ts) & (Wss & Tss) & Ld & Ls & Lss & ups & U & H) C FT I LI B TT.
  assert (forall x n, wf f x -> adtype x = DPrim I64 n -> length (logical x) = length rows -> exists b, take x ip idx = Ok b /\ spec_take (logical x) idx = Some (logical b) /\ alen b = length idx /\ adtype b = DPrim I64 n /\ wf (pf f) b) as TK.
  { intros x n W T L. destruct (take_commutes_with_decoding f x ip idx W C FT I LI) as [T1 T2]; [rewrite L; exact B|]. destruct (T2 TT) as (b & E). destruct (T1 b E) as (Q1 & Q2 & _ & Q4 & Q5).
    exists b. split; [exact E|]. split; [exact Q1|]. split; [exact Q2|]. split; [rewrite <- T; apply Q4; right; rewrite T; reflexivity|exact Q5]. }
  destruct (TK _ _ Wd Td Ld) as (d & E1 & D1 & Ad & Td' & Wd'). destruct (TK _ _ Ws Ts Ls) as (s & E2 & D2 & As & Ts' & Ws'). destruct (TK _ _ Wss Tss Lss) as (ss & E3 & D3 & Ass & Tss' & Wss').
  unfold dtp_take. rewrite E1, E2, E3. cbn [bind]. unfold try_dtp. rewrite Td', Ts', Tss', Ad, As, Ass, Nat.eqb_refl. cbn [is_int_dtype is_int negb orb nullable]. rewrite Bool.eqb_reflx. cbn [negb orb].
  assert (forall l : list value, length l = length rows -> spec_take l idx = Some (pick l idx)) as SP.
  { intros l Hl. apply spec_take_pick. eapply Forall_impl; [|exact B]. intros k Hk. cbv beta in *. lia. }
  eexists. exists (pick rows idx). split; [reflexivity|]. split; [apply SP; reflexivity|].
  rewrite SP in D1, D2, D3 by auto. injection D1 as D1. injection D2 as D2. injection D3 as D3.
  unfold represents, parts_class. cbn [t_days t_secs t_subs t_nl t_unit]. rewrite <- D1, <- D2, <- D3, !pick_length. do 6 (split; [auto|]). exists ups. split; [exact U|]. intros k Hk.
  rewrite !nth_pick by exact Hk. apply H. pose proof (Forall_nth_lt _ _ 0 k B Hk) as X. exact X.
Qed.
Print Assumptions parts_take_the_rows.

(** * Examples and the defect *)

(** A nullable millisecond column of timestamps before and after the epoch, split, recombined, sliced. *)
Example split_example :
  let storage := APrim I64 [(-1); 0; 86400000; (-86400001); 9223372036854775807; (-9223372036854775808)]%Z (VBits [true; false; true; true; true; true]) in
  wf (Flags true true true true true true true true true true) storage /\ adtype storage = DPrim I64 true /\ unit_per_second Ms = Some 1000%Z /\
  logical storage = [VInt (-1); VNull; VInt 86400000; VInt (-86400001); VInt 9223372036854775807; VInt (-9223372036854775808)]%Z /\
  split_temporal Ms storage = Ok (APrim I64 [0; 0; 1; (-1); 106751991167; (-106751991167)]%Z (VBits [true; false; true; true; true; true]),
    APrim I64 [0; 0; 0; 0; 25975; (-25975)]%Z VNonNull, APrim I64 [(-1); 0; 0; (-1); 807; (-808)]%Z VNonNull).
Proof.
  cbv zeta. split; [|repeat split; reflexivity]. split; [|reflexivity]. repeat constructor; intros X; discriminate X.
Qed.

(** With overflow checks on, decoding panics on an array whose only row is null, if the stored days value of that row is large:
    the loop recombines the rows without looking at the validity. *)
Theorem decode_panics_on_garbage_under_nulls_refuted :
  ~ (forall (f : flags) (a : dtp) (rows : list value), represents f a rows -> fc f = true -> fC f = true -> fv f = true ->
     exists r, decode_temporal true a = Ok r).
Proof.
  intros H. set (a := DTP Ns true (APrim I64 [9223372036854775807%Z] VAllInvalid) (APrim I64 [0%Z] VNonNull) (APrim I64 [0%Z] VNonNull)).
  destruct (H (Flags true true true true true true true true true true) a [VNull]) as [r E]; try reflexivity.
  - repeat split; try reflexivity; try (repeat constructor; intros X; discriminate X). exists 1000000000%Z. split; [reflexivity|]. intros i Hi. assert (i = 0) as -> by (cbn in Hi; lia). cbn. eauto.
  - vm_compute in E. discriminate E.
Qed.
Print Assumptions decode_panics_on_garbage_under_nulls_refuted.
