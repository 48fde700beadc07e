(** The boolean view of arrays: inversion and the positions of set values (variants.rs). Model (C51). *)
From Verif Require Import Base Spec Arr ArrRead ArrWf ArrSlice IntEnc RunEnc ArrOps.

(** BoolArrayTrait::invert: the default, vortex-array/src/variants.rs:87-98, and constant/variants.rs:56-62. [ConstantArray::new(!b, n)] is
    not nullable. [None] of as_bool_array (every encoding but those of bool/mod.rs:93, constant/variants.rs:24, sparse/variants.rs:19,
    chunked/variants.rs:18, bytebool/src/array.rs:87) is Err; roaring and run-end booleans are not in [array]. *)
Definition is_bool_view (a : array) : bool :=
  match a with ABool _ _ _ _ | AByteBool _ _ => true | AConst _ _ _ | ASparse _ _ _ _ _ | AChunked _ _ => is_bool (adtype a) | _ => false end.
Definition invert (a : array) : result array :=
  if negb (is_bool_view a) then Err
  else match a with
       | AConst _ VNull n => Ok a
       | AConst _ (VBool b) n => Ok (AConst (DBool false) (VBool (negb b)) n)
       | AConst _ _ _ => Err
       | _ => do (l, v) <- into_bool (canon a); try_bool 0 (map negb l) (length l) v
       end.
(** maybe_null_indices_iter: bool/mod.rs:99-101 (from bit 0 of the buffer), constant/variants.rs:64-74, sparse/variants.rs:51-53;
    todo!() in chunked/variants.rs:50-52 and bytebool/src/array.rs:93-95. *)
Definition set_positions (a : array) : result (list nat) :=
  if negb (is_bool_view a) then Err
  else match a with
       | ABool _ buf len _ => Ok (set_indices (lslice buf 0 len))
       | AConst _ (VBool b) n => Ok (if b then seq 0 n else [])
       | AConst _ VNull n => Ok []
       | ASparse idx _ off _ _ => resolved_indices (canon idx) off
       | _ => Panic
       end.
(** maybe_null_slices_iter: bool/mod.rs:103-105, constant/variants.rs:76-89; todo!() in sparse, chunked and bytebool. *)
Definition set_ranges (a : array) : result (list (nat * nat)) :=
  if negb (is_bool_view a) then Err
  else match a with
       | ABool _ buf len _ => Ok (set_slices (lslice buf 0 len))
       | AConst _ (VBool b) n => Ok (if b then [(0, n)] else [])
       | AConst _ VNull n => Ok []
       | _ => Panic
       end.
