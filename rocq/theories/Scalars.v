(** Model of vortex-scalar (scalars, their order and casts) and of the primitive array cast.

    Unlike [value] (Spec), the scalar values here carry the physical type of numbers, as in the code; floats are bit patterns. *)
From Coq Require Import Floats.SpecFloat.
From Verif Require Import Base Spec CmpSpec Arr ArrWf ValidityModel Compare.

(** Strings and byte strings are lists of bytes. *)
Definition bytes := list Z.

(** DType, vortex-dtype/src/dtype.rs:24-33, with StructDType (151-154) and ExtDType (extension.rs:56-59). *)
Inductive xdtype :=
  | XNull
  | XBool (n : bool)
  | XPrim (p : ptype) (n : bool)
  | XUtf8 (n : bool)
  | XBinary (n : bool)
  | XStruct (names : list bytes) (ts : list xdtype) (n : bool)
  | XList (t : xdtype) (n : bool)
  | XExt (id : bytes) (meta : option bytes) (n : bool).

(** is_nullable 45-58 and with_nullability 68-79. *)
Definition xnullable (d : xdtype) : bool :=
  match d with XNull => true | XBool n | XPrim _ n | XUtf8 n | XBinary n | XStruct _ _ n | XList _ n | XExt _ _ n => n end.
Definition xwith (d : xdtype) (n : bool) : xdtype :=
  match d with
  | XNull => XNull | XBool _ => XBool n | XPrim p _ => XPrim p n | XUtf8 _ => XUtf8 n | XBinary _ => XBinary n
  | XStruct ns ts _ => XStruct ns ts n | XList t _ => XList t n | XExt i m _ => XExt i m n
  end.
(** Derived [PartialEq]. *)
Definition bytes_dec : forall a b : bytes, {a = b} + {a <> b} := list_eq_dec Z.eq_dec.
Definition ptype_dec : forall a b : ptype, {a = b} + {a <> b}.
Proof. decide equality. Defined.
Definition obytes_dec : forall a b : option bytes, {a = b} + {a <> b}.
Proof. decide equality. apply bytes_dec. Defined.
Fixpoint xeqb (a b : xdtype) {struct a} : bool :=
  match a, b with
  | XNull, XNull => true
  | XBool n, XBool m | XUtf8 n, XUtf8 m | XBinary n, XBinary m => Bool.eqb n m
  | XPrim p n, XPrim q m => (if ptype_dec p q then true else false) && Bool.eqb n m
  | XStruct ns ts n, XStruct ms us m =>
      (if list_eq_dec bytes_dec ns ms then true else false) &&
      (fix go (l r : list xdtype) {struct l} : bool := match l, r with [], [] => true | x :: l', y :: r' => xeqb x y && go l' r' | _, _ => false end) ts us && Bool.eqb n m
  | XList t n, XList u m => xeqb t u && Bool.eqb n m
  | XExt i e n, XExt j f m => (if bytes_dec i j then true else false) && (if obytes_dec e f then true else false) && Bool.eqb n m
  | _, _ => false
  end.
(** eq_ignore_nullability, 81-83: only the outermost nullability is ignored. *)
Definition eq_ignoring (a b : xdtype) : bool := xeqb (xwith a true) (xwith b true).

(** ScalarValue, vortex-scalar/src/value.rs:18-27, and PValue, pvalue.rs:12-24: a physical type and a number (bit pattern for floats). *)
Inductive sval :=
  | SBool (b : bool)
  | SPrim (p : ptype) (z : Z)
  | SBuf (b : bytes)
  | SStr (b : bytes)
  | SList (l : list sval)
  | SNull.

(** is_instance_of, value.rs:77-95. *)
Fixpoint instance_of (v : sval) (d : xdtype) {struct v} : bool :=
  match v, d with
  | SBool _, XBool _ => true
  | SPrim p _, XPrim q _ => if ptype_dec p q then true else false
  | SBuf _, XBinary _ => true
  | SStr _, XUtf8 _ => true
  | SList l, XList t _ => forallb (fun g => g t) (map instance_of l)
  | SList l, XStruct _ ts _ =>
      (fix go (l : list sval) (ts : list xdtype) {struct l} : bool := match l, ts with x :: l', t :: ts' => instance_of x t && go l' ts' | _, _ => true end) l ts
  | SNull, d => xnullable d
  | _, _ => false
  end.

(** * Order *)

(** Derived [PartialOrd]: the variants in the order of their declaration, then their contents; lists lexicographically. *)
Definition variant (v : sval) : nat := match v with SBool _ => 0 | SPrim _ _ => 1 | SBuf _ => 2 | SStr _ => 3 | SList _ => 4 | SNull => 5 end.
Fixpoint sval_cmp (x y : sval) {struct x} : option comparison :=
  match x, y with
  | SBool a, SBool b => Some (bool_cmp a b)
  | SPrim p a, SPrim q b => if ptype_dec p q then Some (total_cmp p a b) else None
  | SBuf a, SBuf b | SStr a, SStr b => Some (lex a b)
  | SList l, SList r =>
      (fix go (l r : list sval) {struct l} : option comparison :=
         match l, r with
         | [], [] => Some Eq | [], _ => Some Lt | _, [] => Some Gt
         | a :: l', b :: r' => match sval_cmp a b with Some Eq => go l' r' | c => c end
         end) l r
  | SNull, SNull => Some Eq
  | _, _ => Some (variant x ?= variant y)
  end.
(** Derived [PartialEq]: floats by IEEE equality. *)
Fixpoint sval_eqb (x y : sval) {struct x} : bool :=
  match x, y with
  | SBool a, SBool b => Bool.eqb a b
  | SPrim p a, SPrim q b => (if ptype_dec p q then true else false) && rel CEq (native_cmp p a b)
  | SBuf a, SBuf b | SStr a, SStr b => if bytes_dec a b then true else false
  | SList l, SList r =>
      (fix go (l r : list sval) {struct l} : bool := match l, r with [], [] => true | a :: l', b :: r' => sval_eqb a b && go l' r' | _, _ => false end) l r
  | SNull, SNull => true
  | _, _ => false
  end.
(** Scalar: [PartialEq] and [PartialOrd], lib.rs:109-123. *)
Definition scalar := (xdtype * sval)%type.
Definition scalar_eqb (x y : scalar) : bool := xeqb (fst x) (fst y) && sval_eqb (snd x) (snd y).
Definition scalar_cmp_partial (x y : scalar) : option comparison := if eq_ignoring (fst x) (fst y) then sval_cmp (snd x) (snd y) else None.

(** * Number conversions: num_traits::NumCast (external crate), with IEEE arithmetic from the standard library's SpecFloat *)
Definition fprec (p : ptype) : Z := (mantissa p + 1)%Z.
Definition femax (p : ptype) : Z := match p with F16 => 16 | F32 => 128 | _ => 1024 end%Z.
Definition femin (p : ptype) : Z := (3 - femax p - fprec p)%Z.
Definition of_bits (p : ptype) (z : Z) : spec_float :=
  let s := is_neg p z in let m := (magnitude p z mod 2 ^ mantissa p)%Z in let e := (magnitude p z / 2 ^ mantissa p)%Z in
  if (e =? 0)%Z then match m with Zpos k => S754_finite s k (femin p) | _ => S754_zero s end
  else if (e =? 2 * femax p - 1)%Z then (if (m =? 0)%Z then S754_infinity s else S754_nan)
  else match (m + 2 ^ mantissa p)%Z with Zpos k => S754_finite s k (e + femin p - 1) | _ => S754_nan end.
Definition to_bits (p : ptype) (f : spec_float) : Z :=
  let sg (s : bool) := if s then sign_bit p else 0%Z in
  match f with
  | S754_zero s => sg s
  | S754_infinity s => (sg s + inf_bits p)%Z
  | S754_nan => (inf_bits p + 2 ^ (mantissa p - 1))%Z
  | S754_finite s k e => (sg s + if Zpos k <? 2 ^ mantissa p then Zpos k else (e - femin p + 1) * 2 ^ mantissa p + (Zpos k - 2 ^ mantissa p))%Z
  end.
(** Truncation of a float towards zero; [None] for NaN and the infinities. *)
Definition truncate (f : spec_float) : option Z :=
  match f with
  | S754_zero _ => Some 0%Z
  | S754_finite s k e => let v := (if 0 <=? e then Zpos k * 2 ^ e else Zpos k / 2 ^ (- e))%Z in Some (if s then (- v)%Z else v)
  | _ => None
  end.
Definition convert (p q : ptype) (z : Z) : Z :=
  match of_bits p z with
  | S754_finite s k e => to_bits q (binary_normalize (fprec q) (femax q) (cond_Zopp s (Zpos k)) e s)
  | f => to_bits q f
  end.
Definition of_int (q : ptype) (z : Z) : Z := to_bits q (binary_normalize (fprec q) (femax q) z 0 false).
(** Integers to integers: range check. Integers to floats: nearest. Floats to integers: truncation, then a range check. Floats to
    floats: nearest (NaN payloads are not modelled). f16 goes through f32. *)
Definition num_cast (p q : ptype) (z : Z) : option Z :=
  if is_float p then
    if is_float q then
      Some (match q, p with F16, F64 => convert F32 F16 (convert F64 F32 z) | _, _ => if ptype_dec p q then z else convert p q z end)
    else match truncate (of_bits p z) with Some v => if in_rangeb q v then Some v else None | None => None end
  else if is_float q then Some (match q with F16 => convert F32 F16 (of_int F32 z) | _ => of_int q z end)
  else if in_rangeb q z then Some z else None.

(** TryFrom<PValue>, pvalue.rs:164-236: reading a number as another type. *)
Definition pv_as (q p : ptype) (z : Z) : result Z :=
  if is_float q then
    match q, p with
    | F16, U16 => Ok z
    | _, _ => if is_float p then match num_cast p q z with Some v => Ok v | None => Err end else Err
    end
  else if is_float p then Err else match num_cast p q z with Some v => Ok v | None => Err end.

(** * Scalar::cast, lib.rs:84-106 *)

(** PrimitiveScalar::try_new, primitive.rs:20-42: the value read as the type the dtype says. *)
Definition prim_scalar (p : ptype) (v : sval) : result (option Z) :=
  match v with SNull => Ok None | SPrim q z => do x <- pv_as p q z; Ok (Some x) | _ => Err end.
(** PrimitiveScalar::cast, primitive.rs:66-77: [expect] on a null. *)
Definition prim_cast (p q : ptype) (v : sval) (n : bool) : result scalar :=
  do o <- prim_scalar p v;
  match o with
  | None => Panic
  | Some z => match num_cast p q z with Some x => Ok (XPrim q n, SPrim q x) | None => Err end
  end.
Fixpoint scalar_cast (v : sval) (d e : xdtype) {struct v} : result scalar :=
  if (match v with SNull => true | _ => false end) && negb (xnullable e) then Err
  else if eq_ignoring d e then Ok (e, v)
  else
    match e, d with
    | XPrim q n, XPrim p _ => prim_cast p q v n
    | XStruct _ ts _, XStruct _ us _ =>  (* StructScalar::cast, struct_.rs:61-97 *)
        match v with
        | SNull | SList _ =>
            if length ts =? length us then
              match v with
              | SList l =>
                  do fs <- (fix go (l : list sval) (us ts : list xdtype) {struct l} : result (list sval) :=
                              match l, us, ts with
                              | [], _, _ => Ok []
                              | x :: l', u :: us', t :: ts' => do r <- scalar_cast x u t; do rs <- go l' us' ts'; Ok (snd r :: rs)
                              | _, _, _ => Panic
                              end) l us ts;
                  Ok (e, SList fs)
              | _ => Ok (e, SNull)
              end
            else Err
        | _ => Err
        end
    | XList _ _, XList _ _ => match v with SNull | SList _ => Panic | _ => Err end  (* todo!(), list.rs:64-66 *)
    | XExt _ _ _, XExt _ _ _ => Panic  (* todo!(), extension.rs:33-35 *)
    | _, _ => Err
    end.

(** * PrimitiveArray::cast, vortex-array/src/array/primitive/compute/cast.rs:9-61 *)

Definition prim_array_cast (a : array) (d : dtype) : result array :=
  match a, d with
  | APrim p l v, DPrim q n =>
      do w <- (if Bool.eqb (vnullable v) n then Ok v else if n then Ok (into_nullable v) else if l_all_valid (to_logical v (length l)) then Ok VNonNull else Err);
      if ptype_dec p q then Ok (APrim p l w)
      else do l' <- mapM (fun z => match num_cast p q z with Some x => Ok x | None => Err end) l; Ok (APrim q l' w)
  | _, _ => Err
  end.
(** try_cast, compute/unary/cast.rs:13-25, on a primitive array. *)
Definition try_cast (a : array) (d : dtype) : result array := if dtype_eqb (adtype a) d then Ok a else prim_array_cast a d.
