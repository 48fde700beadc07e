(** C47: temporal types survive being written as extension metadata and being converted to Arrow types and back. *)
From Verif Require Import Base Spec Arr DateTime Temporal.

(** A time zone the format can hold: a non-empty string of less than 2^16 bytes. *)
Definition tz_ok (tz : option (list Z)) : Prop :=
  match tz with None => True | Some s => s <> [] /\ (Z.of_nat (length s) <= 65535)%Z /\ utf8_valid s = true end.
Definition lossless (lossy : list Z -> list Z) : Prop := forall s, utf8_valid s = true -> lossy s = s.

Lemma tag_roundtrip u : tag_unit (unit_tag u) = Ok u.
Proof. destruct u; reflexivity. Qed.
Lemma lslice_app_r {A} (a b : list A) : lslice (a ++ b) (length a) (length a + length b) = b.
Proof.
  unfold lslice. rewrite skipn_app, skipn_all, Nat.sub_diag. cbn [app skipn].
  replace (length a + length b - length a) with (length b) by lia. apply firstn_all.
Qed.

(** * Metadata *)
(** Every temporal metadata (with a time zone the format can hold) is read back from its bytes. *)
Theorem temporal_metadata_roundtrip :
  forall lossy, lossless lossy ->
  forall m : tmeta, tz_ok (meta_tz m) ->
  exists b, meta_bytes m = Ok b /\ temporal_of lossy (ExtDType (meta_id m) (Some b)) = Ok m.
Proof.
  intros lossy HL [u|u|u [tz|]] T; cbn [meta_bytes meta_tz tz_ok] in *.
  - eexists. split; [reflexivity|]. cbn. rewrite tag_roundtrip. reflexivity.
  - eexists. split; [reflexivity|]. cbn. rewrite tag_roundtrip. reflexivity.
  - destruct T as (T1 & T2 & T3). change (pmax U16) with 65535%Z. destruct (Z.leb_spec (Z.of_nat (length tz)) 65535); [|lia].
    eexists. split; [reflexivity|]. unfold temporal_of. cbn [x_meta x_id meta_id]. unfold decode_timestamp, decode_unit.
    cbn [byte_at nth_error bind]. rewrite tag_roundtrip. cbn [bind]. unfold bytes_at at 1. unfold u16_le. cbn [app length Nat.leb andb bind].
    cbn [lslice Nat.sub skipn firstn nth].
    assert (Z.to_nat (Z.of_nat (length tz) mod 256 + 256 * (Z.of_nat (length tz) / 256)) = length tz) as -> by lia.
    destruct (Nat.eqb_spec (length tz) 0) as [E|E]; [apply length_zero_iff_nil in E; contradiction|].
    unfold bytes_at. set (h := [unit_tag u; (Z.of_nat (length tz) mod 256)%Z; (Z.of_nat (length tz) / 256)%Z]).
    change (unit_tag u :: (Z.of_nat (length tz) mod 256)%Z :: (Z.of_nat (length tz) / 256)%Z :: tz) with (h ++ tz).
    change (S (S (S (length tz)))) with (length h + length tz). change (3 + length tz) with (length h + length tz). change 3 with (length h).
    destruct (Nat.leb_spec (length h) (length h + length tz)); [|lia]. rewrite Nat.leb_refl. cbn [andb bind].
    rewrite lslice_app_r, HL by exact T3. reflexivity.
  - eexists. split; [reflexivity|]. unfold temporal_of. cbn [x_meta x_id meta_id]. unfold decode_timestamp, decode_unit. cbn [byte_at nth_error bind].
    rewrite tag_roundtrip. reflexivity.
Qed.
Print Assumptions temporal_metadata_roundtrip.

(** So extension types with the same id and metadata bytes stand for the same temporal type. *)
Theorem temporal_dtype_injective :
  forall m1 m2 x, tz_ok (meta_tz m1) -> tz_ok (meta_tz m2) -> ext_of_meta m1 = Ok x -> ext_of_meta m2 = Ok x -> m1 = m2.
Proof.
  intros m1 m2 x T1 T2 E1 E2. set (lo := fun s : list Z => s).
  destruct (temporal_metadata_roundtrip lo ltac:(intros s _; reflexivity) m1 T1) as (b1 & B1 & D1).
  destruct (temporal_metadata_roundtrip lo ltac:(intros s _; reflexivity) m2 T2) as (b2 & B2 & D2).
  unfold ext_of_meta in *. rewrite B1 in E1. rewrite B2 in E2. cbn [bind] in *. congruence.
Qed.
Print Assumptions temporal_dtype_injective.

(** * Arrow types *)
(** The Arrow types with a temporal meaning: 32-bit times count seconds or milliseconds, 64-bit ones micro- or nanoseconds. *)
Definition temporal_type (t : atype) : Prop :=
  match t with
  | TDate32 | TDate64 | TTime32 ASecond | TTime32 AMilli | TTime64 AMicro | TTime64 ANano => True
  | TTimestamp _ tz => tz_ok tz
  | _ => False
  end.

Lemma unit_roundtrip u : aunit_of (unit_of u) = Ok u.
Proof. destruct u; reflexivity. Qed.

Theorem arrow_temporal_type_roundtrip :
  forall lossy, lossless lossy ->
  forall t : atype, temporal_type t -> exists x, make_temporal t = Ok x /\ make_arrow lossy x = Ok t.
Proof.
  intros lossy HL t H.
  assert (forall m, tz_ok (meta_tz m) -> arrow_of_meta m = Ok t -> exists x, ext_of_meta m = Ok x /\ make_arrow lossy x = Ok t) as K.
  { intros m T E. destruct (temporal_metadata_roundtrip lossy HL m T) as (b & B & D). unfold ext_of_meta. rewrite B. cbn [bind].
    eexists. split; [reflexivity|]. unfold make_arrow. rewrite D. exact E. }
  destruct t as [| | | | | | |u|u|u tz| | |]; cbn [temporal_type make_temporal] in *; try contradiction; try destruct u; try contradiction;
    apply K; try exact H; try exact I; reflexivity.
Qed.
Print Assumptions arrow_temporal_type_roundtrip.

(** And the other way: a temporal extension type with a unit its kind allows has an Arrow type, which converts back to the same id and
    metadata bytes. *)
Definition unit_allowed (m : tmeta) : Prop :=
  match m with MDate u => u = Day \/ u = Ms | MTime u | MTimestamp u _ => u <> Day end.
Theorem temporal_ext_roundtrip :
  forall lossy, lossless lossy ->
  forall m : tmeta, tz_ok (meta_tz m) -> unit_allowed m ->
  exists x t, ext_of_meta m = Ok x /\ make_arrow lossy x = Ok t /\ make_temporal t = Ok x.
Proof.
  intros lossy HL m T U. destruct (temporal_metadata_roundtrip lossy HL m T) as (b & B & D).
  assert (exists t, arrow_of_meta m = Ok t /\ make_temporal t = ext_of_meta m) as (t & E1 & E2).
  { destruct m as [u|u|u tz]; destruct u; cbn [unit_allowed] in U; try contradiction; try (destruct U; discriminate); eexists; split; reflexivity. }
  unfold ext_of_meta in *. rewrite B in *. cbn [bind] in *. eexists. exists t. split; [reflexivity|]. split; [|exact E2].
  unfold make_arrow. rewrite D. exact E1.
Qed.
Print Assumptions temporal_ext_roundtrip.

(** * Rejections *)
(** An unknown id, missing metadata, or an unknown unit tag is an error. *)
Theorem temporal_rejects :
  forall lossy x,
  x_meta x = None \/ is_temporal (x_id x) = false \/ (exists t r, x_meta x = Some (t :: r) /\ ~ (0 <= t <= 4)%Z) ->
  temporal_of lossy x = Err.
Proof.
  intros lossy [i md] [H|[H|(t & r & H & R)]]; cbn [x_meta x_id] in *; unfold temporal_of; cbn [x_meta x_id].
  - rewrite H. reflexivity.
  - destruct md, i; try discriminate; reflexivity.
  - subst md. assert (tag_unit t = Err) as E.
    { unfold tag_unit. repeat match goal with |- context [(t =? ?k)%Z] => destruct (Z.eqb_spec t k); [lia|] end. reflexivity. }
    destruct i; [..|reflexivity]; unfold decode_timestamp, decode_unit; cbn [byte_at nth_error bind]; rewrite E; reflexivity.
Qed.
Print Assumptions temporal_rejects.

(** * Failures *)
(** The empty time zone is written as "no time zone": a timestamp type with an empty zone becomes one without. *)
Theorem empty_timezone_refuted :
  forall lossy,
  meta_bytes (MTimestamp Ns (Some [])) = Ok [0; 0; 0]%Z /\
  temporal_of lossy (ExtDType IdTimestamp (Some [0; 0; 0]%Z)) = Ok (MTimestamp Ns None) /\
  exists x, make_temporal (TTimestamp ANano (Some [])) = Ok x /\ make_arrow lossy x = Ok (TTimestamp ANano None).
Proof. intros lossy. repeat split; try reflexivity. eexists. split; reflexivity. Qed.
Print Assumptions empty_timezone_refuted.

(** Metadata that is too short, as a damaged file may contain, panics instead of being an error; so does writing a long time zone. *)
Theorem short_metadata_refuted :
  forall lossy,
  temporal_of lossy (ExtDType IdDate (Some [])) = Panic /\
  temporal_of lossy (ExtDType IdTimestamp (Some [0]%Z)) = Panic /\
  temporal_of lossy (ExtDType IdTimestamp (Some [0; 3; 0; 85; 84]%Z)) = Panic /\
  (forall u tz, (65535 < Z.of_nat (length tz))%Z -> meta_bytes (MTimestamp u (Some tz)) = Panic).
Proof.
  intros lossy. repeat split; try reflexivity. intros u tz H. cbn [meta_bytes]. change (pmax U16) with 65535%Z.
  destruct (Z.leb_spec (Z.of_nat (length tz)) 65535); [lia|reflexivity].
Qed.
Print Assumptions short_metadata_refuted.

(** Non-vacuity: "UTC". *)
Example ex_temporal :
  meta_bytes (MTimestamp Ms (Some [85; 84; 67]%Z)) = Ok [2; 3; 0; 85; 84; 67]%Z /\
  temporal_of (fun s => s) (ExtDType IdTimestamp (Some [2; 3; 0; 85; 84; 67]%Z)) = Ok (MTimestamp Ms (Some [85; 84; 67]%Z)) /\
  tz_ok (Some [85; 84; 67]%Z) /\ lossless (fun s => s) /\ temporal_type (TTimestamp AMilli (Some [85; 84; 67]%Z)).
Proof. repeat split; try discriminate; try reflexivity. Qed.
