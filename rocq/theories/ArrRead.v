(** Model of the read path: is_valid, scalar_at, search_sorted, for every encoding of [array]. *)
From Verif Require Import Base Spec SearchModel Arr.

(** * Small helpers *)

(** vortex_expect / unwrap: an error becomes a panic. *)
Definition expect {A} (r : result A) : result A := match r with Err => Panic | x => x end.
Definition is_panic {A} (r : result A) : bool := match r with Panic => true | _ => false end.
(** usize::try_from(&Scalar), vortex-scalar/src/primitive.rs: fails on null and on negative values. *)
Definition to_usize (x : value) : result nat :=
  match x with VInt z => if (0 <=? z)%Z then Ok (Z.to_nat z) else Err | _ => Err end.
(** Validity::is_valid with the unchecked read of the validity array made explicit, validity.rs:114-128. *)
Definition vvalid_r (v : validity) (i : nat) : result bool :=
  match v with
  | VNonNull | VAllValid => Ok true
  | VAllInvalid => Ok false
  | VBits l => match nth_error l i with Some b => Ok b | None => Panic end
  end.

(** Scalar comparison against an integer scalar of the same type: ScalarValue's derived order puts [Null] last
    (vortex-scalar/src/value.rs, vortex-scalar/src/lib.rs:115-123). *)
Definition cmp_val (x : value) (v : Z) : option comparison :=
  match x with VInt z => Some (Z.compare z v) | VNull => Some Gt | _ => None end.

(** The read operations one encoding offers. [r_ssf]: its SearchSortedFn if it has one, as
    (search_sorted, search_sorted_u64, one step of search_sorted_u64_many). *)
Record reads_t := Reads {
  r_valid : nat -> result bool;                     (* ArrayValidity::is_valid *)
  r_satu : nat -> result value;                     (* ScalarAtFn::scalar_at_unchecked *)
  r_sat : nat -> result value;                      (* ScalarAtFn::scalar_at *)
  r_ssf : option ((Z -> side -> result search_result) *
                  (Z -> side -> result search_result) * (Z -> side -> result search_result))
}.

(** compute::unary::scalar_at, scalar_at.rs:12-27. *)
Definition scalar_at_ (a : array) (R : reads_t) (i : nat) : result value :=
  if alen a <=? i then Err
  else do b <- r_valid R i; if b then r_sat R i else Ok VNull.

(** [impl IndexOrd<Scalar> for Array] and SearchSorted on it, search_sorted.rs:378-383 and 253-319. [same] says that
    the searched scalar has the array's type. Simplification: a panic of scalar_at at any index counts as a panic of
    the search, whether or not that index is probed. *)
Definition gen_search (a : array) (R : reads_t) (same : bool) (v : Z) (s : side) : result search_result :=
  if existsb (fun i => is_panic (scalar_at_ a R i)) (seq 0 (alen a)) then Panic
  else search_sorted_gen
         (fun i => match scalar_at_ a R i with Ok x => if same then cmp_val x v else None | _ => None end)
         s (alen a).

(** compute::search_sorted for an integer target, search_sorted.rs:135-159. Searching float, bool or string arrays is
    not modelled ([Err]). *)
Definition search_sorted_ (a : array) (R : reads_t) (v : Z) (s : side) : result search_result :=
  match adtype a with
  | DPrim p _ =>
      if is_int p && in_rangeb p v then
        match r_ssf R with
        | Some (f, _, _) => f v s
        | None => gen_search a R true v s
        end
      else Err
  | _ => Err
  end.

Definition is_u64 (d : dtype) : bool := match d with DPrim U64 _ => true | _ => false end.
(** compute::search_sorted_u64, search_sorted.rs:161-179. *)
Definition search_sorted_u64_ (a : array) (R : reads_t) (v : Z) (s : side) : result search_result :=
  match r_ssf R with
  | Some (_, g, _) => g v s
  | None => gen_search a R (is_u64 (adtype a)) v s
  end.
(** one element of compute::search_sorted_u64_many, search_sorted.rs:207-225. *)
Definition search_sorted_u64_many_ (a : array) (R : reads_t) (v : Z) (s : side) : result search_result :=
  match r_ssf R with
  | Some (_, _, h) => h v s
  | None => search_sorted_u64_ a R v s
  end.

(** * Per-encoding reads *)

(** NullArray, array/null/mod.rs:30-45, null/compute.rs:30-38. *)
Definition null_reads : reads_t :=
  Reads (fun _ => Ok false) (fun _ => Ok VNull) (fun _ => Ok VNull) None.

(** BoolArray, bool/compute/scalar_at.rs:8-23, bool/mod.rs. An out-of-range unchecked read is a panic here. *)
Definition bool_reads (off : nat) (buf : list bool) (v : validity) : reads_t :=
  let at_ i := match nth_error buf (off + i) with Some b => Ok (VBool b) | None => Panic end in
  Reads (vvalid_r v) at_ at_ None.

(** PrimitiveArray search, primitive/compute/search_sorted.rs:13-107. *)
Definition prim_search (vals : list Z) (v : validity) (x : Z) (s : side) : result search_result :=
  match v with
  | VNonNull | VAllValid => search_sorted_list vals x s
  | VAllInvalid => Ok (NotFound 0)
  | VBits l =>
      search_sorted_gen
        (fun i => if nth i l false then Some (Z.compare (nth i vals 0%Z) x) else Some Gt) s (length vals)
  end.
Definition prim_search_u64 (p : ptype) (vals : list Z) (v : validity) (x : Z) (s : side) : result search_result :=
  if in_rangeb p x then prim_search vals v x s else Ok (NotFound (length vals)).
(** PrimitiveArray, primitive/compute/scalar_at.rs:9-19. *)
Definition prim_reads (p : ptype) (vals : list Z) (v : validity) : reads_t :=
  let at_ i := match nth_error vals i with Some z => Ok (VInt z) | None => Panic end in
  Reads (vvalid_r v) at_ at_
    (Some (prim_search vals v, prim_search_u64 p vals v, prim_search_u64 p vals v)).

(** varbin_scalar, varbin/mod.rs:272-280: invalid UTF-8 panics. *)
Definition bytes_scalar (utf8 : bool) (s : list Z) : result value :=
  if utf8 && negb (utf8_valid s) then Panic else Ok (VBytes s).

(** VarBinViewArray, varbinview/compute.rs:38-47 and mod.rs:441-457. *)
Definition view_bytes_at (bufs : list (list Z)) (w : view) : result (list Z) :=
  match w with
  | VInl s => Ok s
  | VRef size _ b off =>
      match nth_error bufs b with
      | None => Panic
      | Some l => if length l <? off + size then Err else Ok (lslice l off (off + size))
      end
  end.
Definition view_sat (utf8 : bool) (views : list view) (bufs : list (list Z)) (i : nat) : result value :=
  match nth_error views i with
  | None => Err
  | Some w => do s <- view_bytes_at bufs w; bytes_scalar utf8 s
  end.
Definition view_reads (utf8 : bool) (views : list view) (bufs : list (list Z)) (v : validity) : reads_t :=
  Reads (vvalid_r v) (fun i => expect (view_sat utf8 views bufs i)) (view_sat utf8 views bufs) None.

(** VarBinArray::offset_at, varbin/mod.rs:184-201. *)
Definition varbin_offset_at (offs : array) (R : reads_t) (i : nat) : result Z :=
  match offs with
  | APrim _ l _ => match nth_error l i with Some z => Ok (wrap U64 z) | None => Panic end
  | _ => match scalar_at_ offs R i with
         | Ok (VInt z) => if (0 <=? z)%Z then Ok z else Panic
         | _ => Panic
         end
  end.
(** slice of the bytes child by 64-bit offsets, with check_slice_bounds (compute/slice.rs:36-47). *)
Definition bytes_slice (bytes : list Z) (s e : Z) : result (list Z) :=
  let n := Z.of_nat (length bytes) in
  if ((n <? s) || (n <? e) || (e <? s))%Z then Err else Ok (lslice bytes (Z.to_nat s) (Z.to_nat e)).
(** VarBinArray::bytes_at, varbin/mod.rs:203-208. *)
Definition varbin_bytes_at (offs : array) (R : reads_t) (bytes : list Z) (i : nat) : result (list Z) :=
  do s <- varbin_offset_at offs R i;
  do e <- varbin_offset_at offs R (i + 1);
  bytes_slice bytes s e.
(** varbin/compute/mod.rs (ScalarAtFn). *)
Definition varbin_sat (utf8 : bool) (offs : array) (R : reads_t) (bytes : list Z) (i : nat) : result value :=
  do s <- varbin_bytes_at offs R bytes i; bytes_scalar utf8 s.
Definition varbin_reads (utf8 : bool) (offs : array) (R : reads_t) (bytes : list Z) (v : validity) : reads_t :=
  Reads (vvalid_r v) (fun i => expect (varbin_sat utf8 offs R bytes i)) (varbin_sat utf8 offs R bytes) None.

(** StructArray, struct_/compute.rs:30-48. *)
Definition struct_reads (fs : list (array * reads_t)) (v : validity) : reads_t :=
  Reads (vvalid_r v)
    (fun i => do vs <- mapM (fun fr => r_satu (snd fr) i) fs; Ok (VStruct vs))
    (fun i => do vs <- mapM (fun fr => scalar_at_ (fst fr) (snd fr) i) fs; Ok (VStruct vs)) None.

(** ExtensionArray, extension/compute.rs:59-73, mod.rs:70-84. *)
Definition ext_reads (st : array) (R : reads_t) : reads_t :=
  Reads (r_valid R) (r_satu R) (scalar_at_ st R) None.

(** ConstantArray, constant/compute.rs:50-58, 89-104; constant/mod.rs (is_valid). *)
Definition const_search (cmp : option comparison) (len : nat) (s : side) : search_result :=
  match cmp with
  | Some Gt => NotFound 0
  | Some Eq => Found (match s with Left => 0 | Right => len end)
  | _ => NotFound len
  end.
Definition const_reads (d : dtype) (x : value) (len : nat) : reads_t :=
  Reads (fun _ => Ok (negb (is_null x))) (fun _ => Ok x) (fun _ => Ok x)
    (let ss v s := Ok (const_search (cmp_val x v) len s) in
     let ss64 v s := Ok (const_search (if is_u64 d then cmp_val x v else if is_null x then Some Gt else None) len s) in
     Some (ss, ss64, ss64)).

(** SparseArray::search_index, sparse/mod.rs:123-129. *)
Definition sparse_search_index (idx : array) (Ri : reads_t) (off i : nat) : result search_result :=
  search_sorted_ idx Ri (Z.of_nat (off + i)) Left.
Definition to_found (r : search_result) : option nat := match r with Found i => Some i | NotFound _ => None end.
(** SparseArray::min_index, sparse/mod.rs:150-158. *)
Definition sparse_min_index (idx : array) (Ri : reads_t) (off : nat) : result (option nat) :=
  if alen idx =? 0 then Ok None
  else do x <- expect (scalar_at_ idx Ri 0); do k <- expect (to_usize x);
       if k <? off then Panic else Ok (Some (k - off)).
Definition sparse_max_index (idx : array) (Ri : reads_t) (off : nat) : result (option nat) :=
  if alen idx =? 0 then Ok None
  else do x <- expect (scalar_at_ idx Ri (alen idx - 1)); do k <- expect (to_usize x);
       if k <? off then Panic else Ok (Some (k - off)).
(** SearchSortedFn for SparseArray, sparse/compute/mod.rs:55-74. *)
Definition sparse_search (idx vals : array) (Ri Rv : reads_t) (off : nat) (x : Z) (s : side) : result search_result :=
  do sr <- search_sorted_ vals Rv x s;
  let sidx := to_offsets_index sr (alen idx) in
  do iv <- scalar_at_ idx Ri sidx;
  do index <- to_usize iv;
  match sr with
  | Found i =>
      let k := if i =? alen idx then index + 1 else index in
      if k <? off then Panic else Ok (Found (k - off))
  | NotFound i =>
      let k := if i =? 0 then index else index + 1 in
      if k <? off then Panic else Ok (NotFound (k - off))
  end.
(** SparseArray reads: is_valid sparse/mod.rs:185-191, scalar_at sparse/compute/mod.rs:39-53. *)
Definition sparse_reads (idx vals : array) (Ri Rv : reads_t) (off : nat) (fill : value) : reads_t :=
  Reads
    (fun i => do r <- expect (sparse_search_index idx Ri off i);
              match to_found r with None => Ok (negb (is_null fill)) | Some k => r_valid Rv k end)
    (fun i => do r <- expect (sparse_search_index idx Ri off i);
              match to_found r with None => Ok fill | Some k => r_satu Rv k end)
    (fun i => do r <- sparse_search_index idx Ri off i;
              match to_found r with None => Ok fill | Some k => r_satu Rv k end)
    (Some (sparse_search idx vals Ri Rv off, sparse_search idx vals Ri Rv off, sparse_search idx vals Ri Rv off)).

(** chunk_offsets built by ChunkedArray::try_new, chunked/mod.rs:54-61: [0, n0, n0+n1, ...]. *)
Fixpoint offsets_from (acc : nat) (lens : list nat) : list nat :=
  acc :: match lens with [] => [] | n :: r => offsets_from (acc + n) r end.
(** ChunkedArray::find_chunk_idx, chunked/mod.rs:106-121, over the chunk lengths. *)
Definition find_chunk_idx (lens : list nat) (index : nat) : result (nat * nat) :=
  if list_sum lens <? index then Panic
  else
    let offs := offsets_from 0 lens in
    do r <- expect (search_sorted_list (map Z.of_nat offs) (Z.of_nat index) Right);
    do e <- to_ends_index r (length lens + 1);
    let k := e - 1 in
    match nth_error offs k with
    | None => Panic
    | Some start => if index <? start then Panic else Ok (k, index - start)
    end.
(** ChunkedArray reads, chunked/mod.rs:212-219, chunked/compute/scalar_at.rs:7-26. *)
Definition chunked_reads (cs : list (array * reads_t)) : reads_t :=
  let lens := map (fun cr => alen (fst cr)) cs in
  Reads
    (fun i => do ko <- find_chunk_idx lens i;
              match nth_error cs (fst ko) with Some cr => r_valid (snd cr) (snd ko) | None => Panic end)
    (fun i => do ko <- find_chunk_idx lens i;
              match nth_error cs (fst ko) with Some cr => r_satu (snd cr) (snd ko) | None => Panic end)
    (fun i => do ko <- find_chunk_idx lens i;
              match nth_error cs (fst ko) with Some cr => scalar_at_ (fst cr) (snd cr) (snd ko) | None => Err end)
    None.

(** DictArray, dict/src/array.rs:76-85, dict/src/compute.rs:27-41. *)
Definition dict_reads (codes : array) (Rc : reads_t) (Rv : reads_t) : reads_t :=
  Reads
    (fun i => do c <- expect (scalar_at_ codes Rc i); do k <- expect (to_usize c); r_valid Rv k)
    (fun i => do c <- r_satu Rc i; do k <- expect (to_usize c); r_satu Rv k)
    (fun i => do c <- scalar_at_ codes Rc i; do k <- to_usize c; r_satu Rv k)
    None.

(** RunEndArray::find_physical_index, runend/src/array.rs:95-98. *)
Definition runend_find (ends : array) (Re : reads_t) (off i : nat) : result nat :=
  do r <- search_sorted_ ends Re (Z.of_nat (i + off)) Right; to_ends_index r (alen ends).
(** RunEndArray, runend/src/array.rs:181-184, runend/src/compute.rs:26-37. *)
Definition runend_reads (ends : array) (Re : reads_t) (vals : array) (Rv : reads_t) (v : validity) (off : nat)
  : reads_t :=
  Reads (vvalid_r v)
    (fun i => do k <- expect (runend_find ends Re off i); r_satu Rv k)
    (fun i => do k <- runend_find ends Re off i; scalar_at_ vals Rv k)
    None.

(** FoR scalar_at, for/compute.rs:60-85: reinterpret, shift left, wrapping add. *)
Definition for_sat (p : ptype) (ref shift : Z) (R : reads_t) (i : nat) : result value :=
  do x <- r_satu R i;
  match x with
  | VInt z => Ok (VInt (wrap p (wrap p (Z.shiftl (wrap p z) shift) + ref)%Z))
  | VNull => Ok VNull
  | _ => Panic
  end.
(** FoR search, for/compute.rs:106-163. *)
Definition for_search (p : ptype) (enc : array) (R : reads_t) (ref shift : Z) (v : Z) (s : side)
  : result search_result :=
  if (v <? ref)%Z then Ok (NotFound 0)
  else
    let encoded := Z.shiftr (wrap p (v - ref)) shift in
    let decoded := wrap p (wrap p (Z.shiftl encoded shift) + ref) in
    let representable := (decoded =? v)%Z in
    let target := if representable then encoded else wrap p (encoded + 1) in
    do r <- search_sorted_ enc R (wrap (to_unsigned p) target) (if representable then s else Left);
    Ok (match representable, r with
        | true, Found i => Found i
        | _, r => NotFound (to_index r)
        end).
Definition for_search_u64 p enc R ref shift (v : Z) (s : side) : result search_result :=
  if in_rangeb p v then for_search p enc R ref shift v s else Err.
(** FoR reads, for/mod.rs:95-98. *)
Definition for_reads (p : ptype) (enc : array) (R : reads_t) (ref shift : Z) : reads_t :=
  Reads (r_valid R) (for_sat p ref shift R) (for_sat p ref shift R)
    (Some (for_search p enc R ref shift, for_search_u64 p enc R ref shift, for_search_u64 p enc R ref shift)).

(** ZigZag, zigzag/src/compute.rs:21-46, array.rs:81-84. *)
Definition zz_sat (R : reads_t) (i : nat) : result value :=
  do x <- r_satu R i;
  match x with VInt z => Ok (VInt (zz_decode z)) | VNull => Ok VNull | _ => Err end.
Definition zz_reads (R : reads_t) : reads_t :=
  Reads (r_valid R) (fun i => expect (zz_sat R i)) (zz_sat R) None.

(** The parts of a patches child that BitPacked uses: a SparseArray (bitpacking/mod.rs:158-173). *)
Record patch_reads := PatchReads { pr_idx : array; pr_Ri : reads_t; pr_off : nat; pr_R : reads_t }.

(** Scalar::cast between nullabilities of the same type. *)
Definition cast_null (n : bool) (x : value) : result value := if is_null x && negb n then Err else Ok x.
(** BitPacked scalar_at, bitpacking/compute/scalar_at.rs:8-23 and compress.rs:263-306 (unpack_single). *)
Definition bp_sat (packed : list Z) (off : nat) (n : bool) (patches : option patch_reads) (i : nat) : result value :=
  let unpacked := match nth_error packed (off + i) with Some z => Ok (VInt z) | None => Panic end in
  match patches with
  | Some q =>
      do b <- r_valid (pr_R q) i;
      if b then (do x <- r_satu (pr_R q) i; cast_null n x) else unpacked
  | None => unpacked
  end.
(** BitPackedSearch, bitpacking/compute/search_sorted.rs:134-187. *)
Definition bp_searcher (packed : list Z) (off len : nat) (v : validity) (patches : option patch_reads)
  (x : Z) (s : side) : result search_result :=
  do mp <- match patches with
           | Some q => do m <- sparse_min_index (pr_idx q) (pr_Ri q) (pr_off q);
                       Ok (match m with Some k => k | None => len end)
           | None => Ok len
           end;
  let fn := match v with VNonNull | VAllValid => len | VAllInvalid => 0 | VBits l => count (fun b => b) l end in
  let first_invalid := Nat.min mp fn in
  search_sorted_gen
    (fun i => if first_invalid <=? i then Some Gt else Some (Z.compare (nth (i + off) packed 0%Z) x)) s len.
(** search_sorted_native, search_sorted.rs:100-120. *)
Definition bp_search (packed : list Z) (bw : Z) (off len : nat) (v : validity) (patches : option patch_reads)
  (x : Z) (s : side) : result search_result :=
  match patches with
  | Some q =>
      if (2 ^ bw - 1 <? x)%Z
      then match r_ssf (pr_R q) with Some (_, g, _) => g x s | None => Panic end
      else bp_searcher packed off len v patches x s
  | None => bp_searcher packed off len v patches x s
  end.
Definition bp_reads (p : ptype) (packed : list Z) (bw : Z) (off len : nat) (v : validity)
  (patches : option patch_reads) : reads_t :=
  let sat := bp_sat packed off (vnullable v) patches in
  Reads (vvalid_r v) (fun i => expect (sat i)) sat
    (Some (bp_search packed bw off len v patches,
           fun x s => if in_rangeb p x then bp_search packed bw off len v patches x s else Ok (NotFound len),
           fun x s => bp_searcher packed off len v patches (wrap p x) s)).

(** ByteBool, bytebool/src/compute.rs:30-38, array.rs:133-136. *)
Definition bytebool_reads (bytes : list Z) (v : validity) : reads_t :=
  let at_ i := match nth_error bytes i with Some z => Ok (VBool (z =? 1)%Z) | None => Panic end in
  Reads (vvalid_r v) at_ at_ None.

Definition panic_reads : reads_t := Reads (fun _ => Panic) (fun _ => Panic) (fun _ => Panic) None.

(** Dispatch on the encoding (Array::with_dyn). *)
Fixpoint reads (a : array) : reads_t :=
  match a with
  | ANull _ => null_reads
  | ABool off buf _ v => bool_reads off buf v
  | APrim p vals v => prim_reads p vals v
  | AView u vs bufs v => view_reads u vs bufs v
  | AVarBin u offs bytes v => varbin_reads u offs (reads offs) bytes v
  | AStruct _ fs _ v => struct_reads (combine fs (map reads fs)) v
  | AExt _ st => ext_reads st (reads st)
  | AConst d x n => const_reads d x n
  | ASparse idx vals off _ fill => sparse_reads idx vals (reads idx) (reads vals) off fill
  | AChunked _ cs => chunked_reads (combine cs (map reads cs))
  | ADict c vals => dict_reads c (reads c) (reads vals)
  | ARunEnd e vals v off _ => runend_reads e (reads e) vals (reads vals) v off
  | AFoR p e ref sh => for_reads p e (reads e) ref sh
  | AZigZag e => zz_reads (reads e)
  | ABitPacked p packed bw off len v patches =>
      bp_reads p packed bw off len v
        (match patches with
         | None => None
         | Some q =>
             match q with
             | ASparse idx vals soff _ fill =>
                 Some (PatchReads idx (reads idx) soff (sparse_reads idx vals (reads idx) (reads vals) soff fill))
             | _ => Some (PatchReads (ANull 0) panic_reads 0 panic_reads) (* "Only sparse patches are supported" *)
             end
         end)
  | AByteBool l v => bytebool_reads l v
  end.

(** * The public read functions *)
Definition is_valid (a : array) (i : nat) : result bool := r_valid (reads a) i.
(** compute::unary::scalar_at, scalar_at.rs:12-27. *)
Definition scalar_at (a : array) (i : nat) : result value := scalar_at_ a (reads a) i.
(** compute::unary::scalar_at_unchecked, scalar_at.rs:30-35. *)
Definition scalar_at_unchecked (a : array) (i : nat) : result value := r_satu (reads a) i.
(** compute::search_sorted, search_sorted.rs:135-159. *)
Definition search_sorted (a : array) (v : Z) (s : side) : result search_result := search_sorted_ a (reads a) v s.
Definition search_sorted_u64 (a : array) (v : Z) (s : side) : result search_result := search_sorted_u64_ a (reads a) v s.
Definition search_sorted_u64_many (a : array) (v : Z) (s : side) : result search_result :=
  search_sorted_u64_many_ a (reads a) v s.
