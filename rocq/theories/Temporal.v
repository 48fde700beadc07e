(** Temporal extension types and their metadata, vortex-datetime-dtype/src: temporal.rs, unit.rs, arrow.rs. *)
From Verif Require Import Base Spec Arr DateTime.

(** The ids "vortex.time", "vortex.date", "vortex.timestamp" (temporal.rs:10-14), and any other. *)
Inductive tid := IdTime | IdDate | IdTimestamp | IdOther (n : nat).
(** ExtDType, vortex-dtype/src/extension.rs:54-64: an id and optional metadata bytes. *)
Record ext_dtype := ExtDType { x_id : tid; x_meta : option (list Z) }.

(** TemporalMetadata, temporal.rs:23-28; a time zone is a string, here its UTF-8 bytes. *)
Inductive tmeta :=
| MTime (u : time_unit)
| MDate (u : time_unit)
| MTimestamp (u : time_unit) (tz : option (list Z)).

(** time_unit, time_zone, temporal.rs:52-67. *)
Definition meta_unit (m : tmeta) : time_unit := match m with MTime u | MDate u | MTimestamp u _ => u end.
Definition meta_tz (m : tmeta) : option (list Z) := match m with MTimestamp _ tz => tz | _ => None end.

(** [u8::from(TimeUnit)] and [TimeUnit::try_from(u8)] (num_enum over #[repr(u8)]), unit.rs:8-29. *)
Definition unit_tag (u : time_unit) : Z := match u with Ns => 0 | Us => 1 | Ms => 2 | Sec => 3 | Day => 4 end%Z.
Definition tag_unit (z : Z) : result time_unit :=
  if (z =? 0)%Z then Ok Ns else if (z =? 1)%Z then Ok Us else if (z =? 2)%Z then Ok Ms else if (z =? 3)%Z then Ok Sec else if (z =? 4)%Z then Ok Day else Err.

(** From<TemporalMetadata> for ExtMetadata, temporal.rs:151-187. *)
Definition u16_le (n : nat) : list Z := [Z.of_nat n mod 256; Z.of_nat n / 256]%Z.
Definition meta_bytes (m : tmeta) : result (list Z) :=
  match m with
  | MTime u | MDate u => Ok [unit_tag u]
  | MTimestamp u None => Ok (unit_tag u :: u16_le 0)
  | MTimestamp u (Some tz) => if (Z.of_nat (length tz) <=? pmax U16)%Z then Ok (unit_tag u :: u16_le (length tz) ++ tz) else Panic
  end.
(** The id that goes with it (arrow.rs:13-50, array/datetime/mod.rs:71-152). *)
Definition meta_id (m : tmeta) : tid := match m with MTime _ => IdTime | MDate _ => IdDate | MTimestamp _ _ => IdTimestamp end.

(** Indexing and slicing a byte slice panic out of bounds. *)
Definition byte_at (b : list Z) (i : nat) : result Z := match nth_error b i with Some z => Ok z | None => Panic end.
Definition bytes_at (b : list Z) (i j : nat) : result (list Z) := if (i <=? j) && (j <=? length b) then Ok (lslice b i j) else Panic.

Section Lossy.
  (** String::from_utf8_lossy: what it makes of bytes that are not UTF-8 is left open. *)
  Variable lossy : list Z -> list Z.

  (** decode_date_metadata, decode_time_metadata, decode_timestamp_metadata, temporal.rs:121-149. *)
  Definition decode_unit (b : list Z) : result time_unit := do t <- byte_at b 0; tag_unit t.
  Definition decode_timestamp (b : list Z) : result tmeta :=
    do u <- decode_unit b;
    do l <- bytes_at b 1 3;
    let tz_len := Z.to_nat (nth 0 l 0 + 256 * nth 1 l 0)%Z in
    if tz_len =? 0 then Ok (MTimestamp u None)
    else do tz <- bytes_at b 3 (3 + tz_len); Ok (MTimestamp u (Some (lossy tz))).
  (** TryFrom<&ExtDType> for TemporalMetadata, temporal.rs:103-119. *)
  Definition temporal_of (x : ext_dtype) : result tmeta :=
    match x_meta x with
    | None => Err
    | Some b =>
        match x_id x with
        | IdTime => do u <- decode_unit b; Ok (MTime u)
        | IdDate => do u <- decode_unit b; Ok (MDate u)
        | IdTimestamp => decode_timestamp b
        | IdOther _ => Err
        end
    end.
  (** is_temporal_ext_type, temporal.rs:16-18. *)
  Definition is_temporal (i : tid) : bool := match i with IdOther _ => false | _ => true end.

  (** * Arrow types *)
  (** arrow_schema::DataType (TimeUnit as ArrowTimeUnit). Field names are numbers, as in [dtype]; a field is a name, a type and
      whether it may be null. Types Vortex does not know are [TOther]. *)
  Inductive aunit := ASecond | AMilli | AMicro | ANano.
  Inductive swidth := Small | Large | Views.
  Inductive atype :=
  | TNull | TBool | TPrim (p : ptype) | TUtf8 (w : swidth) | TBinary (w : swidth)
  | TDate32 | TDate64 | TTime32 (u : aunit) | TTime64 (u : aunit) | TTimestamp (u : aunit) (tz : option (list Z)) | TDuration (u : aunit)
  | TStruct (names : list nat) (nls : list bool) (ts : list atype)
  | TOther (n : nat).

  (** From<ArrowTimeUnit> for TimeUnit and TryFrom<TimeUnit> for ArrowTimeUnit, arrow.rs:87-116. *)
  Definition unit_of (u : aunit) : time_unit := match u with ASecond => Sec | AMilli => Ms | AMicro => Us | ANano => Ns end.
  Definition aunit_of (u : time_unit) : result aunit := match u with Sec => Ok ASecond | Ms => Ok AMilli | Us => Ok AMicro | Ns => Ok ANano | Day => Err end.

  (** make_temporal_ext_dtype, arrow.rs:13-50. *)
  Definition ext_of_meta (m : tmeta) : result ext_dtype := do b <- meta_bytes m; Ok (ExtDType (meta_id m) (Some b)).
  Definition make_temporal (t : atype) : result ext_dtype :=
    match t with
    | TTimestamp u tz => ext_of_meta (MTimestamp (unit_of u) tz)
    | TTime32 u => ext_of_meta (MTime (unit_of u))
    | TTime64 u => ext_of_meta (MTime (unit_of u))
    | TDate32 => ext_of_meta (MDate Day)
    | TDate64 => ext_of_meta (MDate Ms)
    | _ => Panic
    end.
  (** make_arrow_temporal_dtype, arrow.rs:55-85. *)
  Definition arrow_of_meta (m : tmeta) : result atype :=
    match m with
    | MDate Day => Ok TDate32
    | MDate Ms => Ok TDate64
    | MDate _ => Panic
    | MTime Sec => Ok (TTime32 ASecond)
    | MTime Ms => Ok (TTime32 AMilli)
    | MTime Us => Ok (TTime64 AMicro)
    | MTime Ns => Ok (TTime64 ANano)
    | MTime Day => Panic
    | MTimestamp Ns tz => Ok (TTimestamp ANano tz)
    | MTimestamp Us tz => Ok (TTimestamp AMicro tz)
    | MTimestamp Ms tz => Ok (TTimestamp AMilli tz)
    | MTimestamp Sec tz => Ok (TTimestamp ASecond tz)
    | MTimestamp Day _ => Panic
    end.
  Definition make_arrow (x : ext_dtype) : result atype :=
    match temporal_of x with Ok m => arrow_of_meta m | _ => Panic end.
End Lossy.
