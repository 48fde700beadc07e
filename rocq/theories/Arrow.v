(** Conversion from and to Arrow: vortex-array/src/arrow/{array,dtype,recordbatch}.rs, canonical.rs:65-287 and
    array/varbinview/mod.rs:518-562. Arrow arrays are modelled after arrow-array 53.2.0 (Cargo.lock). *)
From Coq Require Import Cantor.
From Verif Require Import Base Spec Arr ArrRead ArrSlice ValidityModel ArrOps DateTime Temporal.

(** * Extension types as the ids of [dtype] *)
(** [dtype] names extension types by a number. Here is the numbering: an id and its metadata bytes, as a list of numbers, by Cantor's pairing. *)
Fixpoint code (l : list nat) : nat := match l with [] => 0 | x :: r => S (Cantor.to_nat (x, code r)) end.
Fixpoint decode (fuel n : nat) : list nat :=
  match fuel, n with
  | S k, S m => let '(x, r) := Cantor.of_nat m in x :: decode k r
  | _, _ => []
  end.
Definition tid_tag (i : tid) : nat := match i with IdTime => 0 | IdDate => 1 | IdTimestamp => 2 | IdOther n => 3 + n end.
Definition tag_tid (n : nat) : tid := match n with 0 => IdTime | 1 => IdDate | 2 => IdTimestamp | S (S (S k)) => IdOther k end.
Definition to_extid (x : ext_dtype) : extid :=
  let n := code (tid_tag (x_id x) :: match x_meta x with None => [] | Some b => 1 :: map Z.to_nat b end) in
  if is_temporal (x_id x) then ETemporal n else EOther n.
Definition of_extid (e : extid) : ext_dtype :=
  let n := match e with ETemporal n | EOther n => n end in
  match decode n n with
  | [] => ExtDType (IdOther 0) None
  | t :: r => ExtDType (tag_tid t) (match r with [] => None | _ :: b => Some (map Z.of_nat b) end)
  end.

(** * Types *)
(** FromArrowType<&Field> for DType, dtype.rs:24-44, 67-106; [nl] is whether the field may be null. List types are not modelled. *)
Fixpoint from_arrow_type (t : atype) (nl : bool) : result dtype :=
  match t with
  | TNull => Ok DNull
  | TBool => Ok (DBool nl)
  | TPrim p => Ok (DPrim p nl)
  | TUtf8 _ => Ok (DUtf8 nl)
  | TBinary _ => Ok (DBinary nl)
  | TDate32 | TDate64 | TTime32 _ | TTime64 _ | TTimestamp _ _ => do x <- make_temporal t; Ok (DExt (to_extid x) nl)
  | TStruct ns nls ts => do ds <- mapM (fun g => fst g (snd g)) (combine (map from_arrow_type ts) nls); Ok (DStruct ns ds nl)
  | TDuration _ | TOther _ => Panic
  end.
(** FromArrowType<SchemaRef>, dtype.rs:46-65. A schema is its fields. *)
Definition from_arrow_schema (ns : list nat) (nls : list bool) (ts : list atype) : result dtype := from_arrow_type (TStruct ns nls ts) false.

Section Lossy.
  Variable lossy : list Z -> list Z.

  (** infer_data_type, dtype.rs:135-183 (a StructDType has as many names as types). *)
  Fixpoint infer_data_type (d : dtype) : result atype :=
    match d with
    | DNull => Ok TNull
    | DBool _ => Ok TBool
    | DPrim p _ => Ok (TPrim p)
    | DUtf8 _ => Ok (TUtf8 Views)
    | DBinary _ => Ok (TBinary Views)
    | DStruct ns ds _ => do ts <- mapM id (map infer_data_type ds); Ok (TStruct ns (map nullable ds) ts)
    | DExt e _ => let x := of_extid e in if is_temporal (x_id x) then make_arrow lossy x else Err
    end.
  (** infer_schema, dtype.rs:109-132. *)
  Definition infer_schema (d : dtype) : result atype :=
    match d with
    | DStruct _ _ false => infer_data_type d
    | _ => Err
    end.

  (** * Arrays *)
  (** Arrow arrays: a null buffer is absent or has one bit per row (set = not null). A boolean array is a bit buffer with an offset. *)
  Inductive aarray :=
  | RNull (n : nat)
  | RBool (off : nat) (bits : list bool) (n : nat) (nb : option (list bool))
  | RPrim (p : ptype) (l : list Z) (nb : option (list bool))
  | RTemp (t : atype) (l : list Z) (nb : option (list bool))
  | RBytes (utf8 large : bool) (offs : list Z) (bytes : list Z) (nb : option (list bool))
  | RView (utf8 : bool) (vs : list view) (bufs : list (list Z)) (nb : option (list bool))
  | RStruct (names : list nat) (nls : list bool) (cols : list aarray) (n : nat) (nb : option (list bool)).

  (** Array::len, data_type. *)
  Definition rlen (r : aarray) : nat :=
    match r with
    | RNull n | RBool _ _ n _ | RStruct _ _ _ n _ => n
    | RPrim _ l _ | RTemp _ l _ => length l
    | RBytes _ _ offs _ _ => length offs - 1
    | RView _ vs _ _ => length vs
    end.
  Fixpoint rtype (r : aarray) : atype :=
    match r with
    | RNull _ => TNull
    | RBool _ _ _ _ => TBool
    | RPrim p _ _ => TPrim p
    | RTemp t _ _ => t
    | RBytes u large _ _ _ => let w := if large then Large else Small in if u then TUtf8 w else TBinary w
    | RView u _ _ _ => if u then TUtf8 Views else TBinary Views
    | RStruct ns nls cols _ _ => TStruct ns nls (map rtype cols)
    end.
  (** The null buffer of an array (Array::logical_nulls: for a null array, all rows). *)
  Definition rnulls (r : aarray) : option (list bool) :=
    match r with
    | RNull n => Some (repeat false n)
    | RBool _ _ _ nb | RPrim _ _ nb | RTemp _ _ nb | RBytes _ _ _ _ nb | RView _ _ _ nb | RStruct _ _ _ _ nb => nb
    end.

  (** The storage type of a temporal type: days, seconds and milliseconds of a time of day are 32 bits wide. *)
  Definition storage_type (t : atype) : ptype := match t with TDate32 | TTime32 _ => I32 | _ => I64 end.

  (** FromArrowArray, array.rs:73-295. [nl] is whether the column may be null. For a timestamp the zone is that of the Rust type
      ([T::DATA_TYPE], array.rs:88-92), which is always None, and not that of the array. *)
  Definition static_type (t : atype) : atype := match t with TTimestamp u _ => TTimestamp u None | t => t end.
  Definition wrap_temporal (t : atype) (a : array) : result array := do x <- make_temporal (static_type t); Ok (AExt (to_extid x) a).
  Fixpoint from_arrow (r : aarray) (nl : bool) : result array :=
    match r with
    | RNull n => if nl then Ok (ANull n) else Panic                                          (* array.rs:182-187 *)
    | RBool off bits n nb => do v <- arrow_nulls nb nl; expect (try_bool off bits n v)       (* array.rs:151-157 *)
    | RPrim p l nb => do v <- arrow_nulls nb nl; expect (try_prim p l v)                     (* array.rs:73-86 *)
    | RTemp t l nb => do v <- arrow_nulls nb nl; do a <- expect (try_prim (storage_type t) l v); wrap_temporal t a  (* array.rs:88-104 *)
    | RBytes u large offs bytes nb =>                                                        (* array.rs:55-71, 108-127 *)
        do v <- arrow_nulls nb nl; expect (try_varbin u (APrim (if large then I64 else I32) offs VNonNull) bytes v)
    | RView u vs bufs nb => do v <- arrow_nulls nb nl; expect (try_view u vs bufs v)         (* array.rs:129-149 *)
    | RStruct ns nls cols n nb =>                                                            (* array.rs:159-180 *)
        do cs <- mapM (fun g => fst g (snd g)) (combine (map from_arrow cols) nls);
        do v <- arrow_nulls nb nl;
        expect (try_struct ns cs n v)
    end.
  (** TryFrom<RecordBatch> for Array, recordbatch.rs:11-34: a record batch is its schema, its columns and its number of rows. *)
  Definition from_record_batch (ns : list nat) (nls : list bool) (cols : list aarray) (n : nat) : result array :=
    do cs <- mapM (fun g => fst g (snd g)) (combine (map from_arrow cols) nls);
    try_struct ns cs n VNonNull.

  (** Every null of [b] is null in [a] (NullBuffer::contains). *)
  Definition masked (a b : list bool) : bool := forallb (fun p => implb (fst p) (snd p)) (combine a b).
  (** arrow's StructArray::try_new: the length is that of the first column, or 0; a column declared non-null may have nulls only where the
      struct is null. *)
  Definition arrow_struct (ns : list nat) (nls : list bool) (cols : list aarray) (nb : option (list bool)) : result aarray :=
    let n := match cols with [] => 0 | c :: _ => rlen c end in
    if negb (forallb (fun c => rlen c =? n) cols) then Err
    else if negb (match nb with Some b => length b =? n | None => true end) then Err
    else if negb (forallb (fun p => fst p || match rnulls (snd p) with
                                            | None => true
                                            | Some b => match nb with Some m => masked m b | None => false end || (count negb b =? 0)
                                            end) (combine nls cols)) then Err
    else Ok (RStruct ns nls cols n nb).

  (** temporal_to_arrow, canonical.rs:198-270. The storage is cast to the type of the unit; TemporalArray's constructors
      (array/datetime/mod.rs:71-152) accept no other type of storage, so a storage of another type is an error here. The arrays built have no
      time zone. *)
  Definition temporal_type_of (m : tmeta) : result atype := match arrow_of_meta m with Ok t => Ok (static_type t) | _ => Err end.
  Definition temporal_to_arrow (m : tmeta) (st : array) : result aarray :=
    do t <- temporal_type_of m;
    match adtype st with
    | DPrim p _ => if ptype_eqb p (storage_type t) then
        do c <- canon st;
        match c with APrim _ l v => Ok (RTemp t l (to_null_buffer (to_logical v (length l)))) | _ => Err end
      else Err
    | _ => Err
    end.

  (** Canonical::into_arrow, canonical.rs:71-86 and the functions it calls; the fuel bounds the nesting of structs. *)
  Fixpoint into_arrow (fuel : nat) (c : array) : result aarray :=
    match c with
    | ANull n => Ok (RNull n)
    | ABool off buf n v => Ok (RBool off buf n (to_null_buffer (to_logical v n)))
    | APrim p l v => Ok (RPrim p l (to_null_buffer (to_logical v (length l))))
    | AView u vs bufs v => Ok (RView u vs bufs (to_null_buffer (to_logical v (length vs))))
    | AExt e st => let x := of_extid e in if is_temporal (x_id x) then do m <- temporal_of lossy x; temporal_to_arrow m st else Err
    | AStruct ns fls n v =>
        match fuel with
        | 0 => Panic
        | S k =>
            do cols <- mapM (fun f => do g <- canon f; into_arrow k g) fls;
            arrow_struct ns (map (fun f => nullable (adtype f)) fls) cols (to_null_buffer (to_logical v n))
        end
    | _ => Panic
    end.

  (** The nesting depth of a data type; [array.into_canonical()?.into_arrow()?]. *)
  Fixpoint ddepth (d : dtype) : nat := match d with DStruct _ ds _ => S (list_max (map ddepth ds)) | _ => 0 end.
  Definition to_arrow (a : array) : result aarray := do c <- canon a; into_arrow (ddepth (adtype a)) c.
  (** TryFrom<Array> for RecordBatch, recordbatch.rs:36-56 (RecordBatch::from panics on a struct array with nulls). *)
  Definition to_record_batch (a : array) : result aarray :=
    do c <- canon a;
    match c with
    | AStruct _ _ _ _ =>
        do r <- into_arrow (ddepth (adtype c)) c;
        match r with RStruct _ _ _ _ (Some b) => if count negb b =? 0 then Ok r else Panic | _ => Ok r end
    | _ => Err
    end.
End Lossy.
