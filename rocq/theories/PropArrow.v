(** C48: conversion from and to Arrow. *)
From Verif Require Import Base Spec Arr ArrRead ArrWf ArrReadProofs ArrSlice ValidityModel ArrOps OpsBase PropIntEnc PropRead PropOps DateTime Temporal PropTemporal Arrow ArrowSpec ArrowProofs ArrowProofs2.

(** * Types *)
(** A data type with an Arrow form converts to an Arrow type and back to itself. *)
Theorem dtype_to_arrow_and_back :
  forall lossy, lossless lossy -> forall d, arrow_form d ->
  exists t, infer_data_type lossy d = Ok t /\ from_arrow_type t (nullable d) = Ok d.
Proof. exact infer_then_import. Qed.
Print Assumptions dtype_to_arrow_and_back.

(** An Arrow type converts to a data type and back to itself, with string types as views (and a field of nulls marked nullable). *)
Theorem arrow_type_to_dtype_and_back :
  forall lossy, lossless lossy -> forall t, supported t -> forall nl,
  exists d, from_arrow_type t nl = Ok d /\ infer_data_type lossy d = Ok (as_views t) /\ nullable d = (nl || is_tnull t)%bool.
Proof. exact import_then_infer. Qed.
Print Assumptions arrow_type_to_dtype_and_back.

(** A schema is the type of a non-nullable struct; nothing else has a schema. *)
Theorem schema_of_structs_only :
  forall lossy d t, infer_schema lossy d = Ok t -> (exists ns ds, d = DStruct ns ds false) /\ infer_data_type lossy d = Ok t.
Proof.
  intros lossy d t H. destruct d as [| | | | |ns ds [|]|]; cbn in H; try discriminate H. split; [eauto|exact H].
Qed.
Print Assumptions schema_of_structs_only.

(** * Importing *)
(** A well-formed Arrow array whose nulls are declared becomes a well-formed array with the same values; its type is the one the
    Arrow type converts to, without time zones; its text can be decoded. *)
Theorem from_arrow_preserves_values :
  forall r nl, arrow_wf r -> nulls_declared r nl ->
  exists a, from_arrow r nl = Ok a /\ wf f0 a /\ logical a = rlogical r /\ alen a = rlen r /\
    from_arrow_type (no_zone (rtype r)) nl = Ok (adtype a) /\ (text_only r -> wf f_dec a).
Proof.
  intros r nl W D. destruct (from_arrow_ok f0 r nl W D) as (a & E & Wa & L & N & T & _).
  { repeat split; auto. intros [X|X]; discriminate X. }
  exists a. split; [exact E|]. split; [exact Wa|]. split; [exact L|]. split; [exact N|]. split; [exact T|]. intros X.
  destruct (from_arrow_ok f_dec r nl W D) as (a' & E' & Wa' & _); [repeat split; auto|]. rewrite E in E'. injection E' as <-. exact Wa'.
Qed.
Print Assumptions from_arrow_preserves_values.

(** Reading a row of an imported array is reading the row of the Arrow array. *)
Theorem imported_rows_are_read :
  forall r nl a i, arrow_wf r -> nulls_declared r nl -> from_arrow r nl = Ok a -> i < rlen r -> scalar_at a i = Ok (nth i (rlogical r) VNull).
Proof.
  intros r nl a i W D E Hi. destruct (from_arrow_preserves_values r nl W D) as (a' & E' & Wa & L & N & _). rewrite E in E'. injection E' as <-.
  destruct (scalar_at_is_the_element f0 a Wa) as (R & _). rewrite R by (rewrite logical_length; lia). rewrite L. reflexivity.
Qed.
Print Assumptions imported_rows_are_read.

(** A record batch: the same for its columns. *)
Theorem record_batch_import :
  forall ns nls cols n, arrow_wf (RStruct ns nls cols n None) -> nulls_declared (RStruct ns nls cols n None) false ->
  exists a, from_record_batch ns nls cols n = Ok a /\ wf f0 a /\ logical a = rlogical (RStruct ns nls cols n None) /\
    from_arrow_schema ns nls (map no_zone (map rtype cols)) = Ok (adtype a).
Proof.
  intros ns nls cols n W D. destruct (from_arrow_preserves_values _ false W D) as (a & E & Wa & L & N & T & _). exists a.
  cbn [from_arrow] in E. unfold from_record_batch. destruct (mapM _ _) as [cs| |]; try discriminate E. cbn [bind arrow_nulls] in E.
  split; [|split; [exact Wa|split; [exact L|exact T]]]. cbn [bind]. destruct (try_struct ns cs n VNonNull); try discriminate E. exact E.
Qed.
Print Assumptions record_batch_import.

(** * Exporting *)
(** Whatever an array is converted to has the array's values and the Arrow type of the array's type, without time zones. (Structs without
    fields are excluded: see below.) *)
Theorem to_arrow_preserves_values :
  forall lossy f a r, wf f a -> fc f = true -> has_fields (adtype a) -> to_arrow lossy a = Ok r ->
  rlogical r = logical a /\ rlen r = alen a /\ exists t, infer_data_type lossy (adtype a) = Ok t /\ rtype r = no_zone t.
Proof.
  intros lossy f a r W C HF E. unfold to_arrow in E. destruct (canon a) as [c| |] eqn:Ec; try discriminate E. cbn [bind] in E.
  destruct (canonical_is_lossless f a W C) as [CL _]. destruct (CL c Ec) as (_ & _ & _ & K & D & Wc).
  pose proof (into_arrow_ok lossy _ (cf f) c r Wc C (has_fields_str _ _ K D HF) E) as X.
  destruct (export_field lossy f a c r W C Ec X) as (X1 & X2 & _ & X4). auto.
Qed.
Print Assumptions to_arrow_preserves_values.

(** Exported arrays are well-formed Arrow arrays: views and offsets in bounds, strings valid UTF-8, null buffers of the right length, columns of
    equal length, and dates and times of the width of their type. *)
Lemma into_arrow_wf lossy : forall k f c r, wf f c -> fc f = true -> has_fields (adtype c) -> into_arrow lossy k c = Ok r -> arrow_wf r.
Proof.
  intros k. induction k as [k IH] using lt_wf_ind. intros f c r W C HF E. pose proof (into_arrow_ok lossy k f c r W C HF E) as X.
  destruct c as [n|o b n v|p l v|u vs bufs v| |ns fls n v|e st| | | | | | | | | ]; try (destruct k; discriminate E).
  - assert (r = RNull n) as -> by (destruct k; cbn in E; congruence). exact I.
  - assert (r = RBool o b n (to_null_buffer (to_logical v n))) as -> by (destruct k; cbn in E; congruence). cbn [wf] in W. destruct W as (W1 & W2 & W3).
    split; [exact W2|]. exact (proj1 (export_nulls v n W3)).
  - assert (r = RPrim p l (to_null_buffer (to_logical v (length l)))) as -> by (destruct k; cbn in E; congruence). cbn [wf] in W. destruct W as (W1 & W2).
    split; [exact W1|]. exact (proj1 (export_nulls v _ W2)).
  - destruct X as (X & _). assert (r = RView u vs bufs (to_null_buffer (to_logical v (length vs)))) as -> by (destruct k; cbn in E; congruence). cbn [wf] in W. destruct W as (W1 & W2 & W3 & _).
    cbn [arrow_wf]. split; [exact W1|]. split; [exact (proj1 (export_nulls v _ W2))|]. unfold strings_valid. rewrite X. exact W3.
  - destruct k as [|k]; [discriminate E|]. cbn [into_arrow] in E. apply wf_struct_iff in W. destruct W as (W1 & W2 & W3).
    cbn [adtype] in HF. apply has_fields_struct in HF. destruct HF as [HF0 HF].
    destruct (mapM _ fls) as [cols| |] eqn:M; try discriminate E. cbn [bind] in E. apply mapM_inv in M.
    assert (Forall arrow_wf cols) as F.
    { clear HF0 W1 E X. revert W3 HF. induction M as [|x y fls cols Hx M IHM]; intros W3 HF; constructor.
      - inversion W3 as [|? ? [Wx _] _]; subst. inversion HF as [|? ? Hfx _]; subst. destruct (canon x) as [g| |] eqn:Eg; try discriminate Hx. cbn [bind] in Hx.
        destruct (canonical_is_lossless f x Wx C) as [CL _]. destruct (CL g Eg) as (_ & _ & _ & K & D & Wg).
        apply (IH k ltac:(lia) (cf f) g y Wg); [exact C| |exact Hx]. exact (has_fields_str _ _ K D Hfx).
      - inversion W3; subst. inversion HF; subst. apply IHM; assumption. }
    assert (length fls = length cols) as Lc by (clear -M; induction M; cbn [length]; congruence).
    assert (forallb (fun c => rlen c =? match cols with [] => 0 | c :: _ => rlen c end) cols = true) as Fl.
    { unfold arrow_struct in E. destruct (forallb (fun c => rlen c =? _) cols); [reflexivity|discriminate E]. }
    apply arrow_struct_ok in E. destruct E as [-> N]. cbn [arrow_wf]. split; [rewrite W1; exact Lc|]. split; [rewrite map_length; exact Lc|]. split; [exact N|].
    rewrite forallb_forall in Fl. rewrite Forall_forall in F. set (m := match cols with [] => 0 | c :: _ => rlen c end) in *. clearbody m.
    clear -F Fl. induction cols as [|c cols IHc]; [exact I|]. split; [split; [apply F; left; reflexivity|apply Nat.eqb_eq, Fl; left; reflexivity]|].
    apply IHc; intros; [apply F|apply Fl]; right; assumption.
  - assert ((if is_temporal (x_id (of_extid e)) then do m <- temporal_of lossy (of_extid e); temporal_to_arrow m st else Err) = Ok r) as E'
      by (destruct k; exact E). clear E X.
    destruct (is_temporal (x_id (of_extid e))) eqn:T; [|discriminate E']. destruct (temporal_of lossy (of_extid e)) as [m| |] eqn:M; try discriminate E'. cbn [bind] in E'.
    unfold temporal_to_arrow, temporal_type_of in E'. destruct (arrow_of_meta m) as [t| |] eqn:A; try discriminate E'. cbn [bind] in E'.
    cbn [wf] in W. destruct W as [W _].
    destruct (adtype st) as [| |p nl| | | | ] eqn:D; try discriminate E'. destruct (ptype_eqb p _) eqn:Ep; [|discriminate E']. apply ptype_eqb_eq in Ep.
    destruct (canon st) as [c| |] eqn:Ec; try discriminate E'. cbn [bind] in E'. destruct c as [| |q l v| | | | | | | | | | | | | ]; try discriminate E'. injection E' as <-.
    destruct (canonical_is_lossless f st W C) as [CL _]. destruct (CL _ Ec) as (_ & L & A' & K' & D' & Wc). cbn [wf] in Wc. destruct Wc as [Wc1 Wc2].
    cbn [arrow_wf]. split; [|split; [|exact (proj1 (export_nulls v _ Wc2))]].
    + destruct m as [[]|[]|[] tz]; cbn in A; try discriminate A; injection A as <-; exact I.
    + assert (adtype (APrim q l v) = DPrim p nl) as Dq by (rewrite <- D; apply D'; rewrite D; reflexivity). injection Dq as -> _. change (temporal_width (static_type t)) with (storage_type (static_type t)). rewrite <- Ep. exact Wc1.
Qed.
Theorem exported_arrays_are_well_formed :
  forall lossy f a r, wf f a -> fc f = true -> has_fields (adtype a) -> to_arrow lossy a = Ok r -> arrow_wf r.
Proof.
  intros lossy f a r W C HF E. unfold to_arrow in E. destruct (canon a) as [c| |] eqn:Ec; try discriminate E. cbn [bind] in E.
  destruct (canonical_is_lossless f a W C) as [CL _]. destruct (CL c Ec) as (_ & _ & _ & K & D & Wc).
  exact (into_arrow_wf lossy _ (cf f) c r Wc C (has_fields_str _ _ K D HF) E).
Qed.
Print Assumptions exported_arrays_are_well_formed.

(** It succeeds for every struct of decodable columns, of temporal columns and of such structs (whatever the encodings of the columns). *)
Theorem to_arrow_succeeds :
  forall lossy f a, wf f a -> fc f = true -> fC f = true -> exportable lossy a -> has_fields (adtype a) -> exists r, to_arrow lossy a = Ok r.
Proof.
  intros lossy f a W C CC X HF. destruct (export_total lossy f C CC (ddepth (adtype a)) a W X HF (le_n _)) as (c & r & E1 & E2).
  exists r. unfold to_arrow. rewrite E1. exact E2.
Qed.
Print Assumptions to_arrow_succeeds.

(** Record batches: exporting gives the rows, and only a struct without null rows is accepted. *)
Theorem record_batch_export :
  forall lossy f a r, wf f a -> fc f = true -> has_fields (adtype a) -> to_record_batch lossy a = Ok r ->
  (exists ns nls cols n nb, r = RStruct ns nls cols n nb) /\ rlogical r = logical a /\ ~ In VNull (logical a) /\ exists t, infer_data_type lossy (adtype a) = Ok t /\ rtype r = no_zone t.
Proof.
  intros lossy f a r W C HF E. unfold to_record_batch in E. destruct (canon a) as [c| |] eqn:Ec; try discriminate E. cbn [bind] in E.
  destruct c as [| | | | |ns fls n v| | | | | | | | | | ]; try discriminate E.
  destruct (into_arrow lossy (ddepth (adtype (AStruct ns fls n v))) (AStruct ns fls n v)) as [q| |] eqn:Ei; try discriminate E. cbn [bind] in E.
  destruct (canonical_is_lossless f a W C) as [CL _]. destruct (CL _ Ec) as (_ & _ & _ & K & D & Wc).
  pose proof (into_arrow_ok lossy _ (cf f) _ q Wc C (has_fields_str _ _ K D HF) Ei) as X.
  destruct (export_field lossy f a _ q W C Ec X) as (X1 & X2 & X3 & X4).
  cbn [adtype ddepth into_arrow] in Ei. destruct (mapM _ fls) as [cols| |]; try discriminate Ei. cbn [bind] in Ei. apply arrow_struct_ok in Ei. destruct Ei as [-> Nb].
  set (nb := to_null_buffer (to_logical v n)) in *. set (k := match cols with [] => 0 | c :: _ => rlen c end) in *.
  set (nls := map (fun f => nullable (adtype f)) fls) in *. clearbody nb k nls.
  assert (match nb with None => True | Some b => count negb b = 0 end /\ r = RStruct ns nls cols k nb) as [Z ->].
  { destruct nb as [b|]; [|injection E as <-; auto]. destruct (Nat.eqb_spec (count negb b) 0) as [Z|]; [|discriminate E]. injection E as <-. auto. }
  split; [eauto 10|]. split; [exact X1|]. split; [|exact X4].
  rewrite <- X1. cbn [rlogical]. intros In. apply In_tab in In. destruct In as (i & Hi & V). destruct nb as [b|]; cbn [ok_at] in V; [|discriminate V].
  cbn [nulls_fit] in Nb. pose proof (proj1 (SearchProofs.count_zero negb b) Z (nth i b false) (nth_In b false (n:=i) ltac:(lia))) as Y. destruct (nth i b false); [discriminate V|discriminate Y].
Qed.
Print Assumptions record_batch_export.

(** * Round trips *)
(** Arrow to Vortex and back: the same values; the same type, up to string views and time zones. *)
Theorem arrow_round_trip :
  forall lossy, lossless lossy -> forall r nl a r',
  arrow_wf r -> nulls_declared r nl -> text_only r -> from_arrow r nl = Ok a -> has_fields (adtype a) -> to_arrow lossy a = Ok r' ->
  rlogical r' = rlogical r /\ (supported (no_zone (rtype r)) -> rtype r' = no_zone (as_views (no_zone (rtype r)))).
Proof.
  intros lossy HL r nl a r' W D T E HF E'. destruct (from_arrow_preserves_values r nl W D) as (a' & Ea & _ & L & _ & Ty & Wd). rewrite E in Ea. injection Ea as <-.
  destruct (to_arrow_preserves_values lossy f_dec a r' (Wd T) eq_refl HF E') as (L' & _ & t & I & R). split; [congruence|]. intros Sp.
  destruct (import_then_infer lossy HL _ Sp nl) as (d & D1 & D2 & _). rewrite Ty in D1. injection D1 as <-. rewrite D2 in I. injection I as <-. exact R.
Qed.
Print Assumptions arrow_round_trip.

(** Vortex to Arrow and back: the same values. *)
Theorem vortex_round_trip :
  forall lossy f a r b, wf f a -> fc f = true -> has_fields (adtype a) -> to_arrow lossy a = Ok r ->
  arrow_wf r -> nulls_declared r (nullable (adtype a)) -> from_arrow r (nullable (adtype a)) = Ok b ->
  wf f0 b /\ logical b = logical a /\ exists t, infer_data_type lossy (adtype a) = Ok t /\ from_arrow_type (no_zone (no_zone t)) (nullable (adtype a)) = Ok (adtype b).
Proof.
  intros lossy f a r b W C HF E Wr D Eb. destruct (to_arrow_preserves_values lossy f a r W C HF E) as (L & _ & t & I & R).
  destruct (from_arrow_preserves_values r _ Wr D) as (b' & Eb' & Wb & Lb & _ & Tb & _). rewrite Eb in Eb'. injection Eb' as <-.
  split; [exact Wb|]. split; [congruence|]. exists t. split; [exact I|]. rewrite <- R. exact Tb.
Qed.
Print Assumptions vortex_round_trip.

(** * Failures *)
(** Time zones are lost in both directions: an imported timestamp column has another type than its schema says, and an exported one too. *)
Definition utc_ns : atype := TTimestamp ANano (Some [85; 84; 67]%Z).
Theorem time_zone_lost_refuted :
  forall lossy, lossless lossy ->
  arrow_wf (RTemp utc_ns [5]%Z None) /\ nulls_declared (RTemp utc_ns [5]%Z None) false /\
  (exists a d, from_arrow (RTemp utc_ns [5]%Z None) false = Ok a /\ from_arrow_type utc_ns false = Ok d /\ adtype a <> d) /\
  (exists a r, adtype a = match from_arrow_type utc_ns false with Ok d => d | _ => DNull end /\ wf f_dec a /\
     to_arrow lossy a = Ok r /\ infer_data_type lossy (adtype a) = Ok utc_ns /\ rtype r = TTimestamp ANano None).
Proof.
  intros lossy HL.
  assert (tz_ok (Some [85; 84; 67]%Z)) as TZ by (repeat split; discriminate).
  assert (temporal_type utc_ns) as TT by exact TZ.
  destruct (arrow_temporal_type_roundtrip lossy HL utc_ns TT) as (x & E & A).
  destruct (arrow_temporal_type_roundtrip lossy HL (TTimestamp ANano None) I) as (y & F & B).
  destruct (make_temporal_meta _ _ E) as (m & M & Z). assert (tz_ok (meta_tz m)) as Tm by (rewrite Z; exact TZ).
  destruct (make_temporal_meta _ _ F) as (m' & M' & Z'). assert (tz_ok (meta_tz m')) as Tm' by (rewrite Z'; exact I).
  pose proof (ext_of_to m x Tm M) as OX. pose proof (ext_of_to m' y Tm' M') as OY.
  assert (from_arrow_type utc_ns false = Ok (DExt (to_extid x) false)) as FT.
  { change (from_arrow_type utc_ns false) with (do x <- make_temporal utc_ns; Ok (DExt (to_extid x) false)). rewrite E. reflexivity. }
  assert (from_arrow (RTemp utc_ns [5]%Z None) false = Ok (AExt (to_extid y) (APrim I64 [5]%Z VNonNull))) as FA.
  { change (from_arrow (RTemp utc_ns [5]%Z None) false) with (do x <- make_temporal (TTimestamp ANano None); Ok (AExt (to_extid x) (APrim I64 [5]%Z VNonNull))). rewrite F. reflexivity. }
  split; [split; [exact TT|split; [repeat constructor; cbn; lia|exact I]]|]. split; [split; [reflexivity|exact I]|]. split.
  - eexists _, _. split; [exact FA|]. split; [exact FT|]. cbn [adtype nullable vnullable]. intros Q. injection Q as Q.
    rewrite <- OX, <- Q, OY, B in A. discriminate A.
  - exists (AExt (to_extid x) (APrim I64 [5]%Z VNonNull)). eexists.
    rewrite FT.
    split; [reflexivity|]. split; [split; [split; [repeat constructor; cbn; lia|exact I]|reflexivity]|].
    pose proof (ext_of_meta_temporal m x M) as IT. unfold make_arrow in A. destruct (temporal_of lossy x) as [m2| |] eqn:T2; try discriminate A.
    split; [|split].
    + change (to_arrow lossy (AExt (to_extid x) (APrim I64 [5]%Z VNonNull))) with (if is_temporal (x_id (of_extid (to_extid x))) then do m <- temporal_of lossy (of_extid (to_extid x)); temporal_to_arrow m (APrim I64 [5]%Z VNonNull) else Err).
      rewrite OX, IT, T2. cbn [bind]. unfold temporal_to_arrow, temporal_type_of. cbn [bind] in A. rewrite A. reflexivity.
    + change (infer_data_type lossy (adtype (AExt (to_extid x) (APrim I64 [5]%Z VNonNull)))) with (if is_temporal (x_id (of_extid (to_extid x))) then make_arrow lossy (of_extid (to_extid x)) else Err).
      rewrite OX, IT. unfold make_arrow. rewrite T2. exact A.
    + reflexivity.
Qed.
Print Assumptions time_zone_lost_refuted.

(** A non-nullable column with a null buffer panics, even if no row is null (Arrow allows such a buffer); so does a non-nullable column of
    nulls, even without rows. *)
Theorem redundant_nulls_refuted :
  arrow_wf (RPrim I32 [1; 2]%Z (Some [true; true])) /\ ~ In VNull (rlogical (RPrim I32 [1; 2]%Z (Some [true; true]))) /\
  from_arrow (RPrim I32 [1; 2]%Z (Some [true; true])) false = Panic /\ from_arrow (RNull 0) false = Panic.
Proof. split; [split; [repeat constructor; cbn; lia|reflexivity]|]. split; [cbn; intuition discriminate|]. split; reflexivity. Qed.
Print Assumptions redundant_nulls_refuted.

(** A struct without fields loses its rows on the way to Arrow. *)
Theorem fieldless_struct_refuted :
  forall lossy, wf f_dec (AStruct [] [] 3 VNonNull) /\ alen (AStruct [] [] 3 VNonNull) = 3 /\
  to_arrow lossy (AStruct [] [] 3 VNonNull) = Ok (RStruct [] [] [] 0 None).
Proof. intros lossy. split; [cbn; auto|]. split; reflexivity. Qed.
Print Assumptions fieldless_struct_refuted.

(** Non-vacuity: a nullable struct of strings with offsets, booleans with a bit offset, and dates. *)
Definition ex_batch : aarray :=
  RStruct [1; 2; 3] [true; false; true]
    [RBytes true false [1; 2; 2; 4]%Z [120; 97; 98; 99]%Z (Some [true; false; true]); RBool 9 (repeat false 10 ++ [true; true]) 3 None; RTemp TDate32 [7; 8; 9]%Z (Some [true; true; false])]
    3 (Some [true; true; false]).
Example ex_batch_ok :
  arrow_wf ex_batch /\ nulls_declared ex_batch true /\ text_only ex_batch /\
  rlogical ex_batch = [VStruct [VBytes [97]%Z; VBool false; VInt 7]; VStruct [VNull; VBool true; VInt 8]; VNull].
Proof.
  split; [|split; [|split; [|reflexivity]]].
  - apply arrow_wf_struct. repeat split; try reflexivity. repeat constructor; cbn; try lia; try reflexivity; intuition (subst; try discriminate; try reflexivity).
    intros _ l I. cbn in I. destruct I as [Q|[Q|[Q|[]]]]; try discriminate Q; injection Q as <-; vm_compute; reflexivity.
  - cbn. repeat split; discriminate.
  - cbn. repeat split. discriminate.
Qed.
Example ex_export :
  exportable (fun s => s) (AStruct [1; 2] [ADict (APrim U8 [1; 0]%Z VNonNull) (APrim I32 [5; 6]%Z VNonNull); AConst (DUtf8 true) VNull 2] 2 VAllValid) /\
  option_map rlogical (match to_arrow (fun s => s) (AStruct [1; 2] [ADict (APrim U8 [1; 0]%Z VNonNull) (APrim I32 [5; 6]%Z VNonNull); AConst (DUtf8 true) VNull 2] 2 VAllValid) with Ok r => Some r | _ => None end) =
  Some [VStruct [VInt 6; VNull]; VStruct [VInt 5; VNull]].
Proof. split; [cbn; auto|vm_compute; reflexivity]. Qed.
