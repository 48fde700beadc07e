(** Encoded arrays: syntax, dtype, length, and what they denote ([logical]). *)
From Verif Require Import Base Spec.

(** * Data types *)

(** Extension ids: vortex-dtype/src/extension.rs:10-59. Names are opaque numbers; the temporal extensions
    (vortex-datetime-dtype) are the only ones with an Arrow form, arrow/datetime. *)
Inductive extid := ETemporal (n : nat) | EOther (n : nat).
Definition extid_eqb (a b : extid) : bool :=
  match a, b with ETemporal x, ETemporal y => x =? y | EOther x, EOther y => x =? y | _, _ => false end.

(** DType, vortex-dtype/src/dtype.rs:22-40; the boolean is [Nullability]. Field names are opaque numbers.
    DType::List is not modelled: no array encoding produces it at this commit. *)
Inductive dtype :=
| DNull
| DBool (n : bool)
| DPrim (p : ptype) (n : bool)
| DUtf8 (n : bool)
| DBinary (n : bool)
| DStruct (names : list nat) (ts : list dtype) (n : bool)
| DExt (id : extid) (n : bool).

(** DType::is_nullable, dtype.rs:84-97. *)
Definition nullable (d : dtype) : bool :=
  match d with
  | DNull => true
  | DBool n | DPrim _ n | DUtf8 n | DBinary n | DStruct _ _ n | DExt _ n => n
  end.

Definition natlist_eqb (a b : list nat) : bool := if list_eq_dec Nat.eq_dec a b then true else false.

(** Derived [PartialEq] on DType. *)
Fixpoint dtype_eqb (a b : dtype) : bool :=
  match a, b with
  | DNull, DNull => true
  | DBool n, DBool m => Bool.eqb n m
  | DPrim p n, DPrim q m => ptype_eqb p q && Bool.eqb n m
  | DUtf8 n, DUtf8 m => Bool.eqb n m
  | DBinary n, DBinary m => Bool.eqb n m
  | DStruct ns ts n, DStruct ms us m =>
      natlist_eqb ns ms && Bool.eqb n m &&
      (fix go (l1 l2 : list dtype) : bool :=
         match l1, l2 with
         | [], [] => true
         | x :: r1, y :: r2 => dtype_eqb x y && go r1 r2
         | _, _ => false
         end) ts us
  | DExt i n, DExt j m => extid_eqb i j && Bool.eqb n m
  | _, _ => false
  end.

(** Data types whose scalars have no nested fields. *)
Definition flat (d : dtype) : bool :=
  match d with DStruct _ _ _ | DExt _ _ => false | _ => true end.
(** Forget top-level nullability. *)
Definition erase (d : dtype) : dtype :=
  match d with
  | DNull => DNull | DBool _ => DBool false | DPrim p _ => DPrim p false | DUtf8 _ => DUtf8 false
  | DBinary _ => DBinary false | DStruct ns ts _ => DStruct ns ts false | DExt i _ => DExt i false
  end.
Definition is_prim (d : dtype) : bool := match d with DPrim _ _ => true | _ => false end.

(** * UTF-8 *)
Definition cont (b : Z) : bool := ((128 <=? b) && (b <=? 191))%Z.
(** Well-formed UTF-8 byte sequences (Unicode table 3-7), the check done by [std::str::from_utf8]. *)
Fixpoint utf8_valid (l : list Z) : bool :=
  match l with
  | [] => true
  | a :: r1 =>
      if ((0 <=? a) && (a <=? 127))%Z then utf8_valid r1
      else match r1 with
      | [] => false
      | b :: r2 =>
          if ((194 <=? a) && (a <=? 223))%Z then cont b && utf8_valid r2
          else match r2 with
          | [] => false
          | c :: r3 =>
              if ((224 <=? a) && (a <=? 239))%Z then
                cont b && cont c &&
                (if (a =? 224)%Z then (160 <=? b)%Z else if (a =? 237)%Z then (b <=? 159)%Z else true) &&
                utf8_valid r3
              else match r3 with
              | [] => false
              | d :: r4 =>
                  ((240 <=? a) && (a <=? 244))%Z && cont b && cont c && cont d &&
                  (if (a =? 240)%Z then (144 <=? b)%Z else if (a =? 244)%Z then (b <=? 143)%Z else true) &&
                  utf8_valid r4
              end
          end
      end
  end.

(** * Validity *)

(** Validity, vortex-array/src/validity.rs:45-55. Simplification: the [Array] variant holds a non-nullable boolean
    child array; it is represented by its decoded bits (slicing/taking/filtering that child is the corresponding
    operation on the bits; for BoolArray children this is what ArrOps proves about [ABool]). *)
Inductive validity := VNonNull | VAllValid | VAllInvalid | VBits (l : list bool).

(** Validity::nullability, validity.rs:105-110. *)
Definition vnullable (v : validity) : bool := match v with VNonNull => false | _ => true end.
(** Validity::is_valid, validity.rs:114-128. *)
Definition vvalid (v : validity) (i : nat) : bool :=
  match v with VNonNull | VAllValid => true | VAllInvalid => false | VBits l => nth i l false end.

(** * Byte-string views *)

(** BinaryView, varbinview/mod.rs:30-161: a string of at most 12 bytes is inlined, a longer one references
    [size] bytes at [off] of buffer [buf] and carries its first four bytes. The 16-byte union is represented by its
    two readings. *)
Inductive view := VInl (s : list Z) | VRef (size : nat) (pre : list Z) (buf off : nat).

(** BinaryView::new_inlined/new_view as chosen by arrow's make_view (used in constant/canonical.rs:85):
    inline when the length is at most MAX_INLINED_SIZE = 12. *)
Definition make_view (s : list Z) (buf off : nat) : view :=
  if length s <=? 12 then VInl s else VRef (length s) (firstn 4 s) buf off.

(** VarBinViewArray::bytes_at, varbinview/mod.rs:441-457. *)
Definition view_bytes (bufs : list (list Z)) (w : view) : list Z :=
  match w with
  | VInl s => s
  | VRef size _ b off => lslice (nth b bufs []) off (off + size)
  end.

(** * Arrays *)
Inductive array :=
| ANull (len : nat)                                             (* array/null/mod.rs *)
| ABool (off : nat) (buf : list bool) (len : nat) (v : validity) (* array/bool/mod.rs:20-82 *)
| APrim (p : ptype) (vals : list Z) (v : validity)               (* array/primitive/mod.rs:30-110 *)
| AView (utf8 : bool) (views : list view) (bufs : list (list Z)) (v : validity) (* array/varbinview/mod.rs:214-262;
      simplification: the byte children (views, buffers) are plain bytes, not encoded arrays *)
| AVarBin (utf8 : bool) (offs : array) (bytes : list Z) (v : validity) (* array/varbin/mod.rs:30-84;
      simplification: the bytes child is plain bytes *)
| AStruct (names : list nat) (fields : list array) (len : nat) (v : validity) (* array/struct_/mod.rs:24-87 *)
| AExt (id : extid) (st : array)                                 (* array/extension/mod.rs:29-54 *)
| AConst (d : dtype) (x : value) (len : nat)                     (* array/constant/mod.rs:36-79 *)
| ASparse (idx vals : array) (off len : nat) (fill : value)      (* array/sparse/mod.rs:47-91 *)
| AChunked (d : dtype) (chunks : list array)                     (* array/chunked/mod.rs:47-79; the chunk_offsets child
      is always the u64 array of prefix sums built by try_new and is recomputed *)
| ADict (codes vals : array)                                     (* encodings/dict/src/array.rs:33-64 *)
| ARunEnd (ends vals : array) (v : validity) (off len : nat)     (* encodings/runend/src/array.rs:37-92 *)
| AFoR (p : ptype) (enc : array) (ref : Z) (shift : Z)           (* encodings/fastlanes/src/for/mod.rs:32-93 *)
| AZigZag (enc : array)                                          (* encodings/zigzag/src/array.rs:33-69 *)
| ABitPacked (p : ptype) (packed : list Z) (bw : Z) (off len : nat) (v : validity) (patches : option array)
      (* encodings/fastlanes/src/bitpacking/mod.rs:43-213; [packed] lists the bw-bit fields, 1024 per block: the
         FastLanes bit layout inside a block is an external crate (fastlanes) and is not modelled *)
| AByteBool (bytes : list Z) (v : validity).                     (* encodings/bytebool/src/array.rs:30-82 *)

(** Nesting depth, used only as recursion fuel. *)
Fixpoint depth (a : array) : nat :=
  match a with
  | ANull _ | ABool _ _ _ _ | APrim _ _ _ | AView _ _ _ _ | AConst _ _ _ | AByteBool _ _ => 0
  | AVarBin _ offs _ _ => S (depth offs)
  | AStruct _ fs _ _ => S (list_max (map depth fs))
  | AExt _ st => S (depth st)
  | ASparse i v _ _ _ => S (max (depth i) (depth v))
  | AChunked _ cs => S (list_max (map depth cs))
  | ADict c v => S (max (depth c) (depth v))
  | ARunEnd e v _ _ _ => S (max (depth e) (depth v))
  | AFoR _ e _ _ => S (depth e)
  | AZigZag e => S (depth e)
  | ABitPacked _ _ _ _ _ _ p => match p with Some q => S (depth q) | None => 0 end
  end.

(** Array::len. *)
Fixpoint alen (a : array) : nat :=
  match a with
  | ANull n => n
  | ABool _ _ n _ => n
  | APrim _ l _ => length l
  | AView _ vs _ _ => length vs
  | AVarBin _ offs _ _ => alen offs - 1          (* varbin/mod.rs:68 *)
  | AStruct _ _ n _ => n
  | AExt _ st => alen st
  | AConst _ _ n => n
  | ASparse _ _ _ n _ => n
  | AChunked _ cs => list_sum (map alen cs)
  | ADict c _ => alen c
  | ARunEnd _ _ _ _ n => n
  | AFoR _ e _ _ => alen e
  | AZigZag e => alen e
  | ABitPacked _ _ _ _ n _ _ => n
  | AByteBool l _ => length l
  end.

(** Array::dtype. *)
Fixpoint adtype (a : array) : dtype :=
  match a with
  | ANull _ => DNull
  | ABool _ _ _ v => DBool (vnullable v)
  | APrim p _ v => DPrim p (vnullable v)
  | AView u _ _ v => if u then DUtf8 (vnullable v) else DBinary (vnullable v)
  | AVarBin u _ _ v => if u then DUtf8 (vnullable v) else DBinary (vnullable v)
  | AStruct ns fs _ v => DStruct ns (map adtype fs) (vnullable v)
  | AExt id st => DExt id (nullable (adtype st))  (* extension/mod.rs:32 *)
  | AConst d _ _ => d
  | ASparse _ vs _ _ _ => adtype vs
  | AChunked d _ => d
  | ADict _ vs => adtype vs
  | ARunEnd _ vs _ _ _ => adtype vs
  | AFoR p e _ _ => DPrim p (nullable (adtype e))
  | AZigZag e => match adtype e with DPrim p n => DPrim (to_signed p) n | d => d end (* zigzag/src/array.rs:33-46 *)
  | ABitPacked p _ _ _ _ v _ => DPrim p (vnullable v)
  | AByteBool _ v => DBool (vnullable v)
  end.

(** * Denotation *)

(** [tab n f] = [f 0, ..., f (n-1)]. *)
Definition tab {A} (n : nat) (f : nat -> A) : list A := map f (seq 0 n).

Definition vint (x : value) : Z := match x with VInt z => z | _ => 0%Z end.
Definition ints (l : list value) : list Z := map vint l.

(** Position of [z] in [l] (first occurrence). *)
Fixpoint pos_of (z : Z) (l : list Z) : option nat :=
  match l with
  | [] => None
  | x :: r => if (x =? z)%Z then Some 0 else match pos_of z r with Some k => Some (S k) | None => None end
  end.

(** ZigZag mapping of the [zigzag] crate: decode(v) = (v >> 1) ^ -(v & 1). *)
Definition zz_decode (z : Z) : Z := if Z.even z then (z / 2)%Z else (- (z / 2) - 1)%Z.
Definition zz_encode (z : Z) : Z := if (0 <=? z)%Z then (2 * z)%Z else (-2 * z - 1)%Z.

(** Frame-of-reference decode: shift left inside the type, then wrapping add, for/compress.rs:100-117. *)
Definition for_decode (p : ptype) (ref shift e : Z) : Z :=
  wrap p (wrap p (Z.shiftl e shift) + ref)%Z.

(** Number of run ends that are at most [x] = index of the run containing logical position [x]. *)
Definition run_index (ends : list Z) (x : nat) : nat := count (fun e => (e <=? Z.of_nat x)%Z) ends.

(** What an array means. This is the intended meaning of the encoding (its documentation and its decoder), written
    pointwise; the model of the decoder code itself is [canon] in ArrOps.v, and C06 relates the two. *)
Fixpoint logical (a : array) : list value :=
  match a with
  | ANull n => repeat VNull n
  | ABool off buf len v => tab len (fun i => if vvalid v i then VBool (nth (off + i) buf false) else VNull)
  | APrim _ l v => tab (length l) (fun i => if vvalid v i then VInt (nth i l 0%Z) else VNull)
  | AView _ vs bufs v =>
      tab (length vs) (fun i => if vvalid v i then VBytes (view_bytes bufs (nth i vs (VInl []))) else VNull)
  | AVarBin _ offs bytes v =>
      let ol := nats (ints (logical offs)) in
      tab (length ol - 1)
        (fun i => if vvalid v i then VBytes (lslice bytes (nth i ol 0) (nth (i + 1) ol 0)) else VNull)
  | AStruct _ fs n v =>
      let ls := map logical fs in
      tab n (fun i => if vvalid v i then VStruct (map (fun l => nth i l VNull) ls) else VNull)
  | AExt _ st => logical st
  | AConst _ x n => repeat x n
  | ASparse idx vals off len fill =>
      let il := ints (logical idx) in
      let vl := logical vals in
      tab len (fun i => match pos_of (Z.of_nat (off + i)) il with Some k => nth k vl VNull | None => fill end)
  | AChunked _ cs => concat (map logical cs)
  | ADict codes vals =>
      let vl := logical vals in
      map (fun c => nth (Z.to_nat (vint c)) vl VNull) (logical codes)
  | ARunEnd ends vals v off len =>
      let el := ints (logical ends) in
      let vl := logical vals in
      tab len (fun i => if vvalid v i then nth (run_index el (off + i)) vl VNull else VNull)
  | AFoR p e ref shift =>
      map (fun x => match x with VInt z => VInt (for_decode p ref shift z) | _ => VNull end) (logical e)
  | AZigZag e => map (fun x => match x with VInt z => VInt (zz_decode z) | _ => VNull end) (logical e)
  | ABitPacked _ packed _ off len v patches =>
      let pl := match patches with Some q => logical q | None => [] end in
      tab len (fun i =>
        if vvalid v i then
          match nth i pl VNull with VInt z => VInt z | _ => VInt (nth (off + i) packed 0%Z) end
        else VNull)
  | AByteBool l v => tab (length l) (fun i => if vvalid v i then VBool (nth i l 0 =? 1)%Z else VNull)
  end.
