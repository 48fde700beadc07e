(** fill_forward and subtract_scalar. *)
From Verif Require Import Base Spec Arr ArrWf ValidityModel.

(** * fill_forward, compute/unary/fill_forward.rs:14-30 *)

(** The scan of primitive/compute/fill.rs:32-42 and bool/compute/fill.rs:35-45. *)
Fixpoint fill_scan {A} (last : A) (l : list A) (valid : list bool) : list A :=
  match l, valid with
  | v :: l', b :: m' => let last' := if b then v else last in last' :: fill_scan last' l' m'
  | _, _ => []
  end.

(** PrimitiveArray, primitive/compute/fill.rs:9-46 (on a nullable array). *)
Definition fill_prim (p : ptype) (l : list Z) (v : validity) : result array :=
  let lv := to_logical v (length l) in
  if l_all_valid lv then Ok (APrim p l VAllValid)
  else if l_all_invalid lv then Ok (APrim p (repeat 0%Z (length l)) VAllValid)
  else match to_null_buffer lv with
       | None => Err
       | Some m => Ok (APrim p (fill_scan 0%Z l m) VAllValid)
       end.
(** BoolArray, bool/compute/fill.rs:10-48: boolean_buffer() is the [len] bits from [off]. *)
Definition fill_bool (off : nat) (buf : list bool) (len : nat) (v : validity) : result array :=
  let lv := to_logical v len in
  if l_all_valid lv then Ok (ABool off buf len VAllValid)
  else if l_all_invalid lv then Ok (ABool 0 (repeat false len) len VAllValid)
  else match to_null_buffer lv with
       | None => Err
       | Some m =>
           let filled := fill_scan false (lslice buf off (off + len)) m in
           Ok (ABool 0 filled (length filled) VAllValid)
       end.
(** fill_forward: NotImplemented error for every other encoding (ByteBoolArray's implementation is not registered,
    bytebool/src/compute.rs:13-15). *)
Definition fill_forward (a : array) : result array :=
  if negb (nullable (adtype a)) then Ok a
  else match a with
       | APrim p l v => fill_prim p l v
       | ABool off buf len v => fill_bool off buf len v
       | _ => Err
       end.

(** * subtract_scalar, compute/unary/scalar_subtract.rs:11-32 *)

(** subtract_scalar_integer, primitive/compute/subtract_scalar.rs:48-75: [-] overflows with a panic in a build with overflow
    checks. [PrimitiveArray::from(Vec)] is non-nullable. *)
Definition sub_checked (p : ptype) (c z : Z) : result Z := if in_rangeb p (z - c) then Ok (z - c)%Z else Panic.
Definition subtract_int (p : ptype) (l : list Z) (v : validity) (c : Z) : result array :=
  if (c =? 0)%Z then Ok (APrim p l v)
  else if negb (l_all_valid (to_logical v (length l))) then Ok (APrim p (map (fun z => wrap p (z - c)) l) v)
  else do r <- mapM (sub_checked p c) l; Ok (APrim p r VNonNull).

Section Subtract.
  (** The machine's float subtraction on bit patterns. *)
  Variable fsub : ptype -> Z -> Z -> Z.
  (** PrimitiveArray::subtract_scalar, primitive/compute/subtract_scalar.rs:13-46, with a scalar of type [d] and value [x]. *)
  Definition subtract_prim (p : ptype) (l : list Z) (v : validity) (d : dtype) (x : value) : result array :=
    if negb (dtype_eqb (DPrim p (vnullable v)) d) then Err
    else if l_all_invalid (to_logical v (length l)) then Ok (AConst (DPrim p (vnullable v)) VNull (length l))
    else match x with
         | VInt c => if is_int p then subtract_int p l v c else Ok (APrim p (map (fun z => fsub p z c) l) VNonNull)
         | _ => Err
         end.
  (** subtract_scalar on primitive arrays and on arbitrarily nested chunked arrays of them (chunked/mod.rs:231-239, whose
      try_new requires every chunk to have the chunked dtype, chunked/mod.rs:47-58). Other encodings are canonicalised to a
      primitive array first and are not modelled here. *)
  Fixpoint subtract_scalar (a : array) (d : dtype) (x : value) : result array :=
    match a with
    | APrim p l v => subtract_prim p l v d x
    | AChunked dt cs =>
        do cs' <- mapM (fun g => g d x) (map subtract_scalar cs);
        if forallb (fun c => dtype_eqb (adtype c) dt) cs' then Ok (AChunked dt cs') else Err
    | _ => Err
    end.
End Subtract.
