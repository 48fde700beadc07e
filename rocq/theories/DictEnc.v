(** Dictionary encoders, encodings/dict/src/compress.rs. *)
From Verif Require Import Base Spec Arr ArrWf ValidityModel.

(** HashMap<Value<T>, u64>::entry, compress.rs:57: the stored entries; key equality is equality of the little-endian
    bytes (lines 25-29), i.e. of the integer or of the float's bit pattern. *)
Fixpoint dict_lookup {K} (eqb : K -> K -> bool) (lk : list (K * nat)) (z : K) : option nat :=
  match lk with
  | [] => None
  | (k, c) :: r => if eqb k z then Some c else dict_lookup eqb r z
  end.

(** The loop of dict_encode_typed_primitive, compress.rs:52-70: returns the codes and the final values vector. *)
Fixpoint dict_loop {K} (eqb : K -> K -> bool) (lk : list (K * nat)) (values : list K) (l : list (option K)) {struct l} :
  list nat * list K :=
  match l with
  | [] => ([], values)
  | None :: r => let '(cs, vs) := dict_loop eqb lk values r in (0 :: cs, vs)
  | Some z :: r =>
      match dict_lookup eqb lk z with
      | Some c => let '(cs, vs) := dict_loop eqb lk values r in (c :: cs, vs)
      | None =>
          let next_code := length values in
          let '(cs, vs) := dict_loop eqb ((z, next_code) :: lk) (values ++ [z]) r in (next_code :: cs, vs)
      end
  end.

(** ArrayAccessor::with_iterator of a primitive array, primitive/accessor.rs:8-38: [None] for the invalid positions. *)
Definition prim_options (l : list Z) (v : validity) : list (option Z) :=
  tab (length l) (fun i => if vvalid v i then Some (nth i l 0%Z) else None).

(** values_validity, compress.rs:73-80 and 168-176. *)
Definition dict_values_validity (nullable : bool) (n : nat) : validity :=
  if nullable then vfrom (false :: repeat true (n - 1)) else VNonNull.

(** dict_encode_primitive, compress.rs:33-86: (codes, values). *)
Definition dict_encode_primitive (p : ptype) (l : list Z) (v : validity) : array * array :=
  let '(codes, values) := dict_loop Z.eqb [] (if vnullable v then [0%Z] else []) (prim_options l v) in
  (APrim U64 (map Z.of_nat codes) VNonNull, APrim p values (dict_values_validity (vnullable v) (length values))).

(** [T]: equality of byte slices. *)
Fixpoint bytes_eqb (a b : list Z) : bool :=
  match a, b with
  | [], [] => true
  | x :: a', y :: b' => (x =? y)%Z && bytes_eqb a' b'
  | _, _ => false
  end.

(** lookup_bytes, compress.rs:110-118. *)
Definition lookup_bytes (offsets : list Z) (bytes : list Z) (idx : nat) : list Z :=
  lslice bytes (Z.to_nat (nth idx offsets 0%Z)) (Z.to_nat (nth (idx + 1) offsets 0%Z)).

(** The loop of dict_encode_typed_varbin, compress.rs:137-166. The raw hash table holds codes; [from_hash] returns an entry
    whose bytes equal the searched ones (equal bytes have equal hashes, so filtering candidates by hash changes nothing). *)
Fixpoint dict_vb_loop (lk : list nat) (offsets bytes : list Z) (l : list (option (list Z))) {struct l} :
  list nat * (list Z * list Z) :=
  match l with
  | [] => ([], (offsets, bytes))
  | None :: r => let '(cs, st) := dict_vb_loop lk offsets bytes r in (0 :: cs, st)
  | Some s :: r =>
      match find (fun idx => bytes_eqb (lookup_bytes offsets bytes idx) s) lk with
      | Some c => let '(cs, st) := dict_vb_loop lk offsets bytes r in (c :: cs, st)
      | None =>
          let next_code := length offsets - 1 in
          let bytes' := bytes ++ s in
          let '(cs, st) := dict_vb_loop (next_code :: lk) (offsets ++ [wrap U32 (Z.of_nat (length bytes'))]) bytes' r in
          (next_code :: cs, st)
      end
  end.

(** dict_encode_typed_varbin, compress.rs:120-188, on the iterator of a Utf8 ([u]) or Binary array. VarBinArray::try_new's
    checks (varbin/mod.rs:30-66) hold by construction of the arguments. *)
Definition dict_encode_varbin (u nullable : bool) (l : list (option (list Z))) : array * array :=
  let '(codes, (offsets, bytes)) := dict_vb_loop [] (if nullable then [0; 0]%Z else [0%Z]) [] l in
  (APrim U64 (map Z.of_nat codes) VNonNull,
   AVarBin u (APrim U32 offsets VNonNull) bytes (dict_values_validity nullable (length offsets - 1))).

(** DictArray::logical_validity, encodings/dict/src/array.rs:87-104. *)
Definition dict_logical_validity (codes vals : array) : lvalidity :=
  if nullable (adtype vals) then LBits (map (fun c => negb (c =? 0)%Z) (ints (logical codes))) else LAllValid (alen codes).
