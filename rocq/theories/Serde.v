(** Model of the serialisation of dtypes and scalars: vortex-dtype/src/serde and vortex-scalar/src/serde.

    The flatbuffers, flexbuffers and protobuf libraries are external: a flatbuffer table or protobuf message is represented by its
    fields (optional where the format lets them be absent), a union by its tag and table. *)
From Verif Require Import Base Spec CmpSpec Arr Scalars.
Local Open Scope Z_scope.

(** * DTypes as flatbuffers *)

(** The tables of vortex-flatbuffers/flatbuffers/vortex-dtype/dtype.fbs. *)
Inductive ftable (T : Type) :=
  | TNull
  | TBool (n : bool)
  | TPrim (p : Z) (n : bool)
  | TDecimal (precision scale : Z) (n : bool)
  | TUtf8 (n : bool)
  | TBinary (n : bool)
  | TStruct (names : option (list bytes)) (ts : option (list T)) (n : bool)
  | TList (t : option T) (n : bool)
  | TExt (id : option bytes) (meta : option bytes) (n : bool).
Arguments TNull {T}. Arguments TBool {T}. Arguments TPrim {T}. Arguments TDecimal {T}. Arguments TUtf8 {T}. Arguments TBinary {T}. Arguments TStruct {T}. Arguments TList {T}. Arguments TExt {T}.
(** DType: the tag of the union and, if present, its table. *)
Inductive fbt := FB (tag : Z) (u : ftable fbt).

(** The union tags, in the order of dtype.fbs (0 is NONE). *)
Definition tag_null := 1. Definition tag_bool := 2. Definition tag_primitive := 3. Definition tag_utf8 := 5. Definition tag_binary := 6.
Definition tag_struct := 7. Definition tag_list := 8. Definition tag_extension := 9.
(** The PType enum of dtype.fbs and dtype.proto; conversions mod.rs:210-247, proto.rs:96-132. *)
Definition ptype_code (p : ptype) : Z :=
  match p with U8 => 0 | U16 => 1 | U32 => 2 | U64 => 3 | I8 => 4 | I16 => 5 | I32 => 6 | I64 => 7 | F16 => 8 | F32 => 9 | F64 => 10 end.
Definition ptype_of_code (z : Z) : option ptype :=
  match z with
  | 0 => Some U8 | 1 => Some U16 | 2 => Some U32 | 3 => Some U64 | 4 => Some I8 | 5 => Some I16 | 6 => Some I32 | 7 => Some I64
  | 8 => Some F16 | 9 => Some F32 | 10 => Some F64 | _ => None
  end.

(** write_flatbuffer, mod.rs:100-208. *)
Definition fb_tag (d : xdtype) : Z :=
  match d with
  | XNull => tag_null | XBool _ => tag_bool | XPrim _ _ => tag_primitive | XUtf8 _ => tag_utf8 | XBinary _ => tag_binary
  | XStruct _ _ _ => tag_struct | XList _ _ => tag_list | XExt _ _ _ => tag_extension
  end.
Fixpoint to_fb (d : xdtype) : fbt :=
  FB (fb_tag d)
    (match d with
     | XNull => TNull
     | XBool n => TBool n
     | XPrim p n => TPrim (ptype_code p) n
     | XUtf8 n => TUtf8 n
     | XBinary n => TBinary n
     | XStruct ns ts n => TStruct (Some ns) (Some (map to_fb ts)) n
     | XList t n => TList (Some (to_fb t)) n
     | XExt i m n => TExt (Some i) m n
     end).

(** TryFrom<fb::DType>, mod.rs:13-97: the tag decides which table is expected; another one reads as absent. *)
Fixpoint from_fb (t : fbt) : result xdtype :=
  match t with
  | FB tag u =>
      if tag =? tag_null then Ok XNull
      else if tag =? tag_bool then match u with TBool n => Ok (XBool n) | _ => Err end
      else if tag =? tag_primitive then match u with TPrim c n => match ptype_of_code c with Some p => Ok (XPrim p n) | None => Err end | _ => Err end
      else if tag =? tag_binary then match u with TBinary n => Ok (XBinary n) | _ => Err end
      else if tag =? tag_utf8 then match u with TUtf8 n => Ok (XUtf8 n) | _ => Err end
      else if tag =? tag_list then match u with TList (Some e) n => do d <- from_fb e; Ok (XList d n) | _ => Err end
      else if tag =? tag_struct then
        match u with
        | TStruct (Some ns) (Some ts) n => do ds <- mapM (fun g => g) (map from_fb ts); Ok (XStruct ns ds n)
        | _ => Err
        end
      else if tag =? tag_extension then match u with TExt (Some i) m n => Ok (XExt i m n) | _ => Err end
      else Err
  end.

(** Field, field.rs:14-20. *)
Inductive field := FName (n : bytes) | FIndex (i : nat).
Definition position (n : bytes) (ns : list bytes) : option nat :=
  (fix go (i : nat) (l : list bytes) := match l with [] => None | x :: r => if bytes_dec x n then Some i else go (S i) r end) 0%nat ns.
(** StructDType::find_name, field_info and project, dtype.rs:174-211 (new does not compare the lengths) (the bounds check lets the length itself pass: indexing panics). *)
Definition field_index (ns : list bytes) (f : field) : result nat :=
  match f with FName n => match position n ns with Some i => Ok i | None => Err end | FIndex i => Ok i end.
Definition field_info (ns : list bytes) (ts : list xdtype) (f : field) : result (bytes * xdtype) :=
  do i <- field_index ns f;
  if (length ns <? i)%nat then Err
  else match nth_error ns i, nth_error ts i with Some n, Some t => Ok (n, t) | _, _ => Panic end.
Definition struct_project (ns : list bytes) (ts : list xdtype) (n : bool) (fs : list field) : result xdtype :=
  do l <- mapM (field_info ns ts) fs; Ok (XStruct (map fst l) (map snd l) n).
(** deserialize_and_project, project.rs:11-62: reads only the selected fields ([get] panics out of range). *)
Definition read_field (ns : list bytes) (ts : list fbt) (f : field) : result (bytes * xdtype) :=
  do i <- field_index ns f;
  match nth_error ns i, nth_error ts i with Some n, Some t => do d <- from_fb t; Ok (n, d) | _, _ => Panic end.
Definition deserialize_and_project (t : fbt) (fs : list field) : result xdtype :=
  match t with
  | FB tag (TStruct (Some ns) (Some ts) n) => if tag =? tag_struct then do l <- mapM (read_field ns ts) fs; Ok (XStruct (map fst l) (map snd l) n) else Err
  | _ => Err
  end.

(** * DTypes as protobuf messages, vortex-dtype/src/serde/proto.rs:11-94; the messages of dtype.proto *)
Inductive pmsg (T : Type) :=
  | PNull | PBool (n : bool) | PPrim (p : Z) (n : bool) | PDecimal (precision scale : Z) (n : bool) | PUtf8 (n : bool) | PBinary (n : bool)
  | PStruct (names : list bytes) (ts : list T) (n : bool) | PList (t : option T) (n : bool) | PExt (id : bytes) (meta : option bytes) (n : bool).
Arguments PNull {T}. Arguments PBool {T}. Arguments PPrim {T}. Arguments PDecimal {T}. Arguments PUtf8 {T}. Arguments PBinary {T}. Arguments PStruct {T}. Arguments PList {T}. Arguments PExt {T}.
Inductive pbt := PB (u : option (pmsg pbt)).
Fixpoint to_pb (d : xdtype) : pbt :=
  PB (Some
    (match d with
     | XNull => PNull
     | XBool n => PBool n
     | XPrim p n => PPrim (ptype_code p) n
     | XUtf8 n => PUtf8 n
     | XBinary n => PBinary n
     | XStruct ns ts n => PStruct ns (map to_pb ts) n
     | XList t n => PList (Some (to_pb t)) n
     | XExt i m n => PExt i m n
     end)).
(** An unknown enum number reads as the default, U8 (prost). *)
Fixpoint from_pb (t : pbt) : result xdtype :=
  match t with
  | PB None => Err
  | PB (Some u) =>
      match u with
      | PNull => Ok XNull
      | PBool n => Ok (XBool n)
      | PPrim c n => Ok (XPrim (match ptype_of_code c with Some p => p | None => U8 end) n)
      | PDecimal _ _ _ => Panic
      | PUtf8 n => Ok (XUtf8 n)
      | PBinary n => Ok (XBinary n)
      | PStruct ns ts n => do ds <- mapM (fun g => g) (map from_pb ts); Ok (XStruct ns ds n)
      | PList (Some e) n => do d <- from_pb e; Ok (XList d n)
      | PList None _ => Err
      | PExt i m n => Ok (XExt i m n)
      end
  end.

(** * Scalars as protobuf messages, vortex-scalar/src/serde/proto.rs:12-161 *)
Inductive pbval :=
  | KNone | KNull | KBool (b : bool) | KInt32 (z : Z) | KInt64 (z : Z) | KUint32 (z : Z) | KUint64 (z : Z) | KFloat (z : Z) | KDouble (z : Z)
  | KStr (b : bytes) | KBytes (b : bytes) | KList (l : list pbval).
Fixpoint val_to_pb (v : sval) : pbval :=
  match v with
  | SNull => KNull
  | SBool b => KBool b
  | SPrim p z =>
      match p with
      | I8 | I16 | I32 => KInt32 z
      | I64 => KInt64 z
      | U8 | U16 | U32 | F16 => KUint32 z
      | U64 => KUint64 z
      | F32 => KFloat z
      | F64 => KDouble z
      end
  | SBuf b => KBytes b
  | SStr b => KStr b
  | SList l => KList (map val_to_pb l)
  end.
Fixpoint val_from_pb (d : xdtype) (k : pbval) {struct k} : result sval :=
  match k with
  | KNone => Err
  | KNull => Ok SNull
  | KBool b => Ok (SBool b)
  | KInt32 z => Ok (SPrim I32 z)
  | KInt64 z => Ok (SPrim I64 z)
  | KUint32 z => match d with XPrim F16 _ => if z <=? 65535 then Ok (SPrim F16 z) else Err | XPrim U32 _ => Ok (SPrim U32 z) | _ => Err end
  | KUint64 z => Ok (SPrim U64 z)
  | KFloat z => Ok (SPrim F32 z)
  | KDouble z => Ok (SPrim F64 z)
  | KStr b => Ok (SStr b)
  | KBytes b => Ok (SBuf b)
  | KList l =>
      match d with
      | XStruct _ ts _ =>  (* zip *)
          do vs <- (fix go (ts : list xdtype) (l : list pbval) {struct l} : result (list sval) :=
                      match l, ts with x :: l', t :: ts' => do v <- val_from_pb t x; do r <- go ts' l'; Ok (v :: r) | _, _ => Ok [] end) ts l;
          Ok (SList vs)
      | XList t _ => do vs <- mapM (fun g => g t) (map (fun k d => val_from_pb d k) l); Ok (SList vs)
      | _ => Err
      end
  end.
Definition scalar_to_pb (s : scalar) : option pbt * option pbval := (Some (to_pb (fst s)), Some (val_to_pb (snd s))).
Definition scalar_from_pb (m : option pbt * option pbval) : result scalar :=
  match m with
  | (Some t, Some k) => do d <- from_pb t; do v <- val_from_pb d k; Ok (d, v)
  | _ => Err
  end.

(** * Scalars through serde (flexbuffers), vortex-scalar/src/serde/serde.rs and flatbuffers.rs *)

(** What the serialiser is given: serde's data model, serde.rs:10-24, 153-173. Byte buffers are written as sequences of u8, f16 as u16. *)
Fixpoint to_serde (v : sval) : sval :=
  match v with
  | SPrim F16 z => SPrim U16 z
  | SBuf b => SList (map (SPrim U8) b)
  | SList l => SList (map to_serde l)
  | v => v
  end.
(** What the visitor is given (26-151): integers come back in any integer type that holds them ("may come back over the wire as e.g.
    any integer type", primitive.rs:28), everything else unchanged. *)
Inductive wire : sval -> sval -> Prop :=
  | wire_int p q z : is_float p = false -> is_float q = false -> in_range q z -> wire (SPrim p z) (SPrim q z)
  | wire_float p z : is_float p = true -> wire (SPrim p z) (SPrim p z)
  | wire_bool b : wire (SBool b) (SBool b)
  | wire_str b : wire (SStr b) (SStr b)
  | wire_null : wire SNull SNull
  | wire_list l r : Forall2 wire l r -> wire (SList l) (SList r).
(** Reading a value as a type: BoolScalar, PrimitiveScalar, Utf8Scalar, BinaryScalar, ListScalar, StructScalar::try_new and the accessors of
    ScalarValue, value.rs:97-136 (a string may also come from a byte buffer: not modelled, since none comes back). *)
Fixpoint read_as (d : xdtype) (v : sval) {struct v} : result sval :=
  match d, v with
  | XExt _ _ _, v => Ok v
  | XNull, SNull | XBool _, SNull | XPrim _ _, SNull | XUtf8 _, SNull | XBinary _, SNull | XStruct _ _ _, SNull | XList _ _, SNull => Ok SNull
  | XBool _, SBool b => Ok (SBool b)
  | XPrim p _, SPrim q z => do x <- pv_as p q z; Ok (SPrim p x)
  | XUtf8 _, SStr b => Ok (SStr b)
  | XBinary _, SBuf b => Ok (SBuf b)
  | XList t _, SList l => do vs <- mapM (fun g => g t) (map (fun v d => read_as d v) l); Ok (SList vs)
  | XStruct _ ts _, SList l =>
      do vs <- (fix go (ts : list xdtype) (l : list sval) {struct l} : result (list sval) :=
                  match l, ts with x :: l', t :: ts' => do v <- read_as t x; do r <- go ts' l'; Ok (v :: r) | _, _ => Ok [] end) ts l;
      Ok (SList vs)
  | _, _ => Err
  end.
