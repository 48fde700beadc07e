(** Comparisons and boolean operators on encoded arrays. *)
From Verif Require Import Base Spec CmpSpec Arr ArrRead ArrWf ArrSlice ValidityModel ArrOps.

(** * Operators *)

(** Operator::swap / inverse, vortex-array/src/compute/compare.rs:38-59. *)
Definition cop_swap (o : cop) : cop := match o with CEq => CEq | CNe => CNe | CGt => CLt | CGe => CLe | CLt => CGt | CLe => CGe end.
Definition cop_inverse (o : cop) : cop := match o with CEq => CNe | CNe => CEq | CGt => CLe | CGe => CLt | CLt => CGe | CLe => CGt end.

(** * Scalars *)

(** NativePType's native [PartialOrd], used by Operator::to_fn, compare.rs:61-70: IEEE for floats. *)
Definition native_cmp (p : ptype) (x y : Z) : option comparison := if is_float p then ieee_cmp p x y else Some (x ?= y)%Z.
(** f32::total_cmp and friends: flip the magnitude bits of negative numbers and compare as signed integers. *)
Definition total_key (p : ptype) (z : Z) : Z := if is_neg p z then (- 1 - magnitude p z)%Z else magnitude p z.
(** NativePType::compare, vortex-dtype/src/ptype.rs:60-98 (total order for floats); also what arrow's cmp kernels use. *)
Definition total_cmp (p : ptype) (x y : Z) : comparison := if is_float p then (total_key p x ?= total_key p y)%Z else (x ?= y)%Z.

(** Derived [PartialOrd] of ScalarValue, vortex-scalar/src/value.rs:17-27, with PValue::partial_cmp, pvalue.rs:26-43. Values carry no
    type here: it comes from the dtype; the storage of an extension scalar is read as an integer. Struct scalars are
    lists, compared lexicographically. *)
Fixpoint sv_cmp (d : dtype) (x y : value) {struct x} : option comparison :=
  match x, y with
  | VNull, VNull => Some Eq | VNull, _ => Some Gt | _, VNull => Some Lt
  | VBool a, VBool b => Some (bool_cmp a b)
  | VInt a, VInt b => Some (match d with DPrim p _ => total_cmp p a b | _ => (a ?= b)%Z end)
  | VBytes a, VBytes b => Some (lex a b)
  | VStruct xs, VStruct ys =>
      (fix go (ts : list dtype) (xs ys : list value) {struct xs} : option comparison :=
         match xs, ys with
         | [], [] => Some Eq | [], _ => Some Lt | _, [] => Some Gt
         | x :: xs', y :: ys' =>
             match sv_cmp (hd DNull ts) x y with Some Eq => go (tl ts) xs' ys' | c => c end
         end) (match d with DStruct _ ts _ => ts | _ => [] end) xs ys
  | _, _ => None
  end.
(** Derived [PartialEq] of ScalarValue: IEEE equality of floats. *)
Fixpoint sv_eq (d : dtype) (x y : value) {struct x} : bool :=
  match x, y with
  | VNull, VNull => true
  | VBool a, VBool b => Bool.eqb a b
  | VInt a, VInt b => match d with DPrim p _ => rel CEq (native_cmp p a b) | _ => (a =? b)%Z end
  | VBytes a, VBytes b => if list_eq_dec Z.eq_dec a b then true else false
  | VStruct xs, VStruct ys =>
      (fix go (ts : list dtype) (xs ys : list value) {struct xs} : bool :=
         match xs, ys with
         | [], [] => true
         | x :: xs', y :: ys' => sv_eq (hd DNull ts) x y && go (tl ts) xs' ys'
         | _, _ => false
         end) (match d with DStruct _ ts _ => ts | _ => [] end) xs ys
  | _, _ => false
  end.
(** Scalar's [PartialEq] and [PartialOrd], vortex-scalar/src/lib.rs:109-123: equality compares the dtypes with their
    nullability, the order ignores it. *)
Definition scalar_eq (d : dtype) (x : value) (e : dtype) (y : value) : bool := dtype_eqb d e && sv_eq d x y.
Definition scalar_partial_cmp (d : dtype) (x : value) (e : dtype) (y : value) : option comparison :=
  if dtype_eqb (erase d) (erase e) then sv_cmp d x y else None.
(** scalar_cmp, compute/compare.rs:126-141. *)
Definition scalar_cmp (d : dtype) (x : value) (e : dtype) (y : value) (op : cop) : value :=
  if is_null x || is_null y then VNull
  else VBool (match op with
              | CEq => scalar_eq d x e y
              | CNe => negb (scalar_eq d x e y)
              | op => rel op (scalar_partial_cmp d x e y)
              end).

(** * Arrow kernels *)

(** Arrow's NullBuffer::union, after buffers without nulls are dropped (arrow-ord cmp.rs, arrow-arith boolean.rs). *)
Definition union_nulls (a b : option (list bool)) : option (list bool) :=
  match a, b with
  | None, b => b
  | a, None => a
  | Some x, Some y => Some (map2 andb x y)
  end.
Definition arrow_side (v : validity) (n : nat) : option (list bool) :=
  match to_null_buffer (to_logical v n) with None => None | Some b => drop_nulls b end.
(** The values of a canonical array handed to Arrow (canonical.rs into_arrow), those under nulls included, and its validity.
    Structs are nested (arrow's cmp refuses them); extension arrays are only compared through their storage below. *)
Definition arrow_form (c : array) : option (dtype * list value * validity) :=
  match c with
  | ANull n => Some (DNull, repeat VNull n, VAllInvalid)
  | ABool off buf len v => Some (DBool false, map VBool (lslice buf off (off + len)), v)
  | APrim p l v => Some (DPrim p false, map VInt l, v)
  | AView u vs bufs v => Some (if u then DUtf8 false else DBinary false, map (fun w => VBytes (view_bytes bufs w)) vs, v)
  | _ => None
  end.
(** arrow_ord::cmp::{eq, neq, lt, lt_eq, gt, gt_eq}, then Array::from_arrow(_, true): floats by total order, null where either
    side is null. Both NullArrays: all null. *)
Definition arrow_kernel (d : dtype) (op : cop) (l : list value) (v : validity) (r : list value) (w : validity) : result array :=
  let n := length l in
  do u <- arrow_nulls (union_nulls (arrow_side v n) (arrow_side w n)) true;
  Ok (ABool 0 (map2 (fun x y => rel op (sv_cmp d x y)) l r) n u).
Definition arrow_cmp (op : cop) (a b : array) : result array :=
  match arrow_form a, arrow_form b with
  | Some (d, l, v), Some (e, r, w) => if dtype_eqb d e then arrow_kernel d op l v r w else Err
  | _, _ => Err
  end.
(** ... with a scalar on the right: a null scalar makes every row null. *)
Definition arrow_cmp_scalar (op : cop) (d : dtype) (l : list value) (v : validity) (x : value) : result array :=
  arrow_kernel d op l v (repeat x (length l)) (if is_null x then VAllInvalid else VNonNull).

(** * compare *)

(** primitive/compute/compare.rs:39-54: a null constant is an error. *)
Definition prim_const_compare (p : ptype) (l : list Z) (v : validity) (x : value) (op : cop) : result array :=
  match x with
  | VInt z => try_bool 0 (map (fun y => rel op (native_cmp p y z)) l) (length l) (into_nullable v)
  | VNull => Err
  | _ => Panic
  end.
(** primitive/compute/compare.rs:18-33, 69-111 (apply_predicate packs the bits 64 at a time). *)
Definition prim_compare (p : ptype) (l : list Z) (v : validity) (q : ptype) (r : list Z) (w : validity) (op : cop) : result array :=
  do u <- vand v w;
  try_bool 0 (map2 (fun x y => rel op (native_cmp p x y)) l r) (length l) (into_nullable u).
(** varbin/compute/compare.rs:26-67 and varbin/arrow.rs:15-107: 64-bit offsets give a Large* Arrow array, which Arrow refuses
    to compare with the Utf8/Binary scalar; other offsets are cast to i32. *)
Definition varbin_const_compare (u : bool) (offs : result array) (bytes : list Z) (v : validity) (x : value) (op : cop) : result array :=
  do (p, ol, _) <- into_prim offs;
  match p with
  | I64 | U64 => Err
  | _ =>
      if negb (forallb (in_rangeb I32) ol) then Err
      else do vals <- mapM (vb_bytes ol bytes) (seq 0 (length ol - 1));
           arrow_cmp_scalar op (if u then DUtf8 false else DBinary false) (map VBytes vals) v x
  end.
Definition is_const (a : array) : bool := match a with AConst _ _ _ => true | _ => false end.
(** compute::compare, compute/compare.rs:81-124, with the MaybeCompareFn/CompareFn of constant (array/constant/compute.rs:106-120),
    primitive, varbin, varbinview (array/varbinview/compute.rs:79-125), extension (array/extension/compute.rs:38-57) and chunked arrays
    (array/chunked/compute/mod.rs:57-72); other encodings have none. Simplification: arrays carry no cached statistics, so the
    constant path is taken only for ConstantArray. The Arrow fallback for extension arrays (temporal Arrow arrays) is not modelled: it
    gives [Err] here, so nothing is claimed about it. [n] bounds the recursion; [compare] gives enough. *)
Fixpoint compare_ (n : nat) (a b : array) (op : cop) : result array :=
  match n with
  | 0 => Panic
  | S k =>
      let own (a b : array) (op : cop) : option (result array) :=
        match a with
        | AConst d x len =>
            match b with
            | AConst e y m => Some (if m =? 0 then Panic else Ok (AConst (DBool true) (scalar_cmp d x e y op) len))
            | _ => None
            end
        | APrim p l v =>
            match b with
            | AConst _ x _ => Some (prim_const_compare p l v x op)
            | APrim q r w => Some (prim_compare p l v q r w op)
            | _ => None
            end
        | AVarBin u offs bytes v =>
            match b with AConst _ x _ => Some (varbin_const_compare u (canon offs) bytes v x op) | _ => None end
        | AView u vs bufs v =>
            match b with
            | AConst _ x _ => Some (do c <- canon a; match arrow_form c with Some (d, l, w) => arrow_cmp_scalar op d l w x | None => Err end)
            | _ => None
            end
        | AExt _ st =>
            match b with
            | AConst _ x m => Some (compare_ k st (AConst (adtype st) x m) op)
            | AExt _ st' => Some (compare_ k st st' op)
            | _ => None
            end
        | AChunked _ cs =>
            Some (do (_, rs) <- foldM (fun (st : nat * list array) c =>
                      do s <- slice b (fst st) (fst st + alen c);
                      do r <- compare_ k c s op;
                      Ok (fst st + alen c, snd st ++ [r])) (0, []) cs;
                  try_chunked rs (DBool true))
        | _ => None
        end in
      if negb (alen a =? alen b) then Err
      else if negb (dtype_eqb (erase (adtype a)) (erase (adtype b))) then Err
      else if is_const a && negb (is_const b) then compare_ k b a (cop_swap op)
      else match own a b op with
           | Some r => r
           | None =>
               match own b a (cop_swap op) with
               | Some r => r
               | None => do x <- canon a; do y <- canon b; arrow_cmp op x y
               end
           end
  end.
Definition compare (a b : array) (op : cop) : result array := compare_ (2 * (depth a + depth b) + 2) a b op.

(** * and / or *)

(** array/bool/compute/boolean.rs:10-36 over arrow's boolean::and / or: null where either side is null. [as_boolean] panics on
    another kind of array. *)
Definition bool_kernel (op : bool -> bool -> bool) (a b : array) : result array :=
  do x <- canon a; do y <- canon b;
  match x, y with
  | ABool o1 b1 n1 v, ABool o2 b2 n2 w =>
      do u <- arrow_nulls (union_nulls (arrow_side v n1) (arrow_side w n2)) true;
      Ok (ABool 0 (map2 op (lslice b1 o1 (o1 + n1)) (lslice b2 o2 (o2 + n2))) n1 u)
  | _, _ => Panic
  end.
Definition as_bool (x : value) : result (option bool) := match x with VNull => Ok None | VBool b => Ok (Some b) | _ => Err end.
(** constant_array_bool_impl, array/constant/compute.rs:144-168. A ConstantArray carries the IsConstant statistic
    (array/constant/mod.rs:42-52), other arrays none (as above). *)
Definition const_bool (op : bool -> bool -> bool) (d : dtype) (x : value) (n : nat) (a b : array) : result array :=
  match b with
  | AConst _ y m =>
      do l <- as_bool x;
      if m =? 0 then Err
      else do r <- as_bool y;
           Ok (AConst (DBool true) (match l, r with Some p, Some q => VBool (op p q) | _, _ => VNull end) n)
  | ABool _ _ _ _ => bool_kernel op b a
  | _ => Err
  end.
(** compute::and / or, compute/boolean.rs:13-63; only BoolArray and ConstantArray implement AndFn/OrFn. *)
Definition bool_op (op : bool -> bool -> bool) (a b : array) : result array :=
  if negb (alen a =? alen b) then Err
  else if negb (is_bool (adtype a)) || negb (is_bool (adtype b)) then Err
  else match a with
       | ABool _ _ _ _ => bool_kernel op a b
       | AConst d x n => const_bool op d x n a b
       | _ =>
           match b with
           | ABool _ _ _ _ => bool_kernel op b a
           | AConst d x n => const_bool op d x n b a
           | _ => do c <- canon a; match c with ABool _ _ _ _ => bool_kernel op c b | _ => Err end
           end
       end.
Definition and_ := bool_op andb.
Definition or_ := bool_op orb.
