(** Iterating over arrays and element-wise functions: model (C49). *)
From Verif Require Import Base Spec Arr ArrRead ArrWf ArrSlice ValidityModel ArrOps DateTime Alp.

(** * Batched iteration *)

(** ITER_BATCH_SIZE, iter/mod.rs:14. *)
Definition batch_max : nat := Z.to_nat 1024.
(** Accessor::batch_size, iter/mod.rs:26-28. *)
Definition batch_size (len start : nat) : nat := Nat.min batch_max (len - start).
(** trait Accessor, iter/mod.rs:25-58. *)
Record acc := Acc {
  c_len : nat;                          (* array_len *)
  c_valid : nat -> result bool;         (* is_valid *)
  c_value : nat -> result Z;            (* value_unchecked *)
  c_validity : validity;                (* array_validity *)
  c_batch : nat -> result (list Z)      (* decode_batch *)
}.
(** The provided decode_batch, iter/mod.rs:35-57. *)
Definition default_batch (len : nat) (value : nat -> result Z) (start : nat) : result (list Z) :=
  mapM (fun k => value (start + k)) (seq 0 (batch_size len start)).
(** PrimitiveArray, primitive/mod.rs:202-237. *)
Definition prim_acc (l : list Z) (v : validity) : acc :=
  Acc (length l) (vvalid_r v) (fun i => match nth_error l i with Some z => Ok z | None => Panic end) v
    (fun start => Ok (firstn (batch_size (length l) start) (skipn start l))).
(** ConstantArray, constant/variants.rs:91-115. [value_unchecked] of a null panics. *)
Definition const_value (x : value) (_ : nat) : result Z := match x with VInt z => Ok z | _ => Panic end.
Definition const_acc (x : value) (n : nat) : acc :=
  Acc n (fun _ => Ok (negb (is_null x))) (const_value x) (if is_null x then VAllInvalid else VAllValid) (default_batch n (const_value x)).
(** The accessor for elements of type [p]: primitive/mod.rs:239-296, constant/variants.rs:117-187; no other array of vortex-array and no
    encoding but ALP has one, and no array has one for f16 (variants.rs:126-169). *)
Definition accessor (p : ptype) (a : array) : option acc :=
  match p, a with
  | F16, _ => None
  | _, APrim q l v => if ptype_eqb p q then Some (prim_acc l v) else None
  | _, AConst (DPrim q _) x n => if ptype_eqb p q then Some (const_acc x n) else None
  | _, _ => None
  end.
(** ALPAccessor, encodings/alp/src/alp/array.rs:140-206. *)
Definition alp_value (p : ptype) (e f : nat) (enc : acc) (patches : option acc) (i : nat) : result Z :=
  let plain := do z <- c_value enc i; if exps_ok p e f then Ok (alp_dec p e f z) else Panic in
  match patches with
  | Some q => do ok <- c_valid q i; if ok then c_value q i else plain
  | None => plain
  end.
Definition alp_batch (p : ptype) (e f : nat) (enc : acc) (patches : option acc) (start : nat) : result (list Z) :=
  do zs <- c_batch enc start;
  do ds <- mapM (fun z => if exps_ok p e f then Ok (alp_dec p e f z) else Panic) zs;
  match patches with
  | Some q => mapM (fun '(k, d) => do ok <- c_valid q (k + start); if ok then c_value q (k + start) else Ok d) (combine (seq 0 (length ds)) ds)
  | None => Ok ds
  end.
(** f32_accessor and f64_accessor of ALPArray, array.rs:208-257. [and_then] drops patches that have no accessor. *)
Definition alp_accessor (p : ptype) (a : alp) : result (option acc) :=
  do (q, n) <- alp_type (l_enc a);
  if negb (ptype_eqb p q) then Ok None
  else
    let patches := match l_patches a with Some x => accessor p x | None => None end in
    match accessor (alp_int p) (l_enc a) with
    | None => Panic
    | Some enc =>
        do lv <- logical_validity (l_enc a);
        let v := into_validity lv in
        Ok (Some (Acc (c_len enc) (vvalid_r v) (alp_value p (l_e a) (l_f a) enc patches) v (alp_batch p (l_e a) (l_f a) enc patches)))
    end.

(** VectorizedArrayIter::next, iter/mod.rs:190-210; the state is current_idx. *)
Definition batch : Type := list Z * validity.
Definition iter_next (c : acc) (idx : nat) : result (option (batch * nat)) :=
  if idx =? c_len c then Ok None
  else
    do data <- c_batch c idx;
    do v <- expect (vslice (c_validity c) idx (idx + length data));
    Ok (Some ((data, v), idx + length data)).
(** size_hint, 212-217: both bounds. *)
Definition size_hint (c : acc) (idx : nat) : nat := c_len c - idx.
(** The batches an iterator yields until it is exhausted. *)
Inductive yields (c : acc) : nat -> list batch -> Prop :=
| y_done idx : iter_next c idx = Ok None -> yields c idx []
| y_next idx b idx' bs : iter_next c idx = Ok (Some (b, idx')) -> yields c idx' bs -> yields c idx (b :: bs).
(** FlattenedBatch, 142-188: the elements of a batch. *)
Definition flatten (b : batch) : result (list (option Z)) :=
  mapM (fun i => do ok <- vvalid_r (snd b) i; Ok (if ok then nth_error (fst b) i else None)) (seq 0 (length (fst b))).

(** * with_iterator: the items the closure sees, as values. *)
Definition mask_nulls (l : list value) (nb : option (list bool)) : list value :=
  match nb with None => l | Some b => map (fun '(x, ok) => if (ok : bool) then x else VNull) (combine l b) end.
(** varbin/accessor.rs:24-47: the strings between neighbouring offsets; only those of valid rows are cut out. *)
Fixpoint neighbours (l : list Z) : list (Z * Z) :=
  match l with x :: (y :: _) as r => (x, y) :: neighbours r | _ => [] end.
Definition cut (bytes : list Z) (p : Z * Z) : result value :=
  if ((fst p <? 0) || (snd p <? fst p) || (Z.of_nat (length bytes) <? snd p))%Z then Panic
  else Ok (VBytes (lslice bytes (Z.to_nat (fst p)) (Z.to_nat (snd p)))).
Definition masked {A} (f : A -> result value) (l : list A) (nb : option (list bool)) : result (list value) :=
  match nb with None => mapM f l | Some b => mapM (fun '(x, ok) => if (ok : bool) then f x else Ok VNull) (combine l b) end.
Definition view_item (bufs : list (list Z)) (w : view) : result value := do s <- view_bytes_at bufs w; Ok (VBytes s).
Definition with_iterator (a : array) : result (list value) :=
  match a with
  | APrim p l v => Ok (mask_nulls (map VInt l) (to_null_buffer (to_logical v (length l))))             (* primitive/accessor.rs:8-28 *)
  | ABool off buf n v =>                                                                                (* bool/accessors.rs:11-33 *)
      let bools := map VBool (lslice buf off (off + n)) in
      match v with
      | VNonNull | VAllValid => Ok bools
      | VAllInvalid => Ok (repeat VNull n)
      | VBits b => Ok (map (fun '(ok, x) => if (ok : bool) then x else VNull) (combine b bools))
      end
  | AVarBin _ offs bytes v =>                                                                           (* varbin/accessor.rs:9-49 *)
      do (p, ol, _) <- into_prim (canon offs);
      if negb (is_int p) then Panic
      else masked (cut bytes) (neighbours ol) (to_null_buffer (to_logical v (alen a)))
  | AView _ vs bufs v => masked (view_item bufs) vs (to_null_buffer (to_logical v (length vs)))         (* varbinview/accessor.rs:11-61 *)
  | _ => Err                                                                                            (* not implemented *)
  end.

(** * Element-wise functions *)
(** CHUNK_SIZE, primitive/mod.rs:331. The output is allocated without initialising it: None marks a slot that has not been written. *)
Definition chunk_size : nat := Z.to_nat 1024.
Definition write_all (out : list (option Z)) (at_ : nat) (xs : list Z) : result (list (option Z)) :=
  set_many out (map (fun k => at_ + k) (seq 0 (length xs))) (map Some xs).
(** The transmute to initialised memory: undefined behaviour, here a panic, if some slot has not been written. *)
Definition assume_init (out : list (option Z)) : result (list Z) := mapM (fun o => match o with Some z => Ok z | None => Panic end) out.
(** Lines 355-368: the chunks, in order; [k] chunks are left. *)
Fixpoint unary_chunks (f : Z -> Z) (data : list Z) (offset k : nat) (out : list (option Z)) : result (list (option Z)) :=
  match k with
  | 0 => Ok out
  | S k' => do out' <- write_all out offset (map f (firstn chunk_size (skipn offset data))); unary_chunks f data (offset + chunk_size) k' out'
  end.
(** UnaryFn for PrimitiveArray, primitive/mod.rs:333-376, for a function from [pi] to [po]. *)
Definition unary (pi po : ptype) (f : Z -> Z) (a : array) : result array :=
  match a with
  | APrim p l v =>
      if negb (ptype_eqb pi p) then Panic
      else
        let start := length l - length l mod chunk_size in
        do out <- write_all (repeat None (length l)) start (map f (skipn start l));
        do out <- unary_chunks f l 0 (length l / chunk_size) out;
        do res <- assume_init out;
        expect (try_prim po res v)
  | _ => Err
  end.
(** Batch::as_, iter/mod.rs:129-135: the bits of [p] values read as [u] values. *)
Definition reinterpret (p u : ptype) (b : batch) : result batch :=
  if (bits p =? bits u)%Z then Ok (if ptype_eqb p u then fst b else map (wrap u) (fst b), snd b) else Panic.
(** process_batch, primitive/mod.rs:432-463. *)
Definition process_batch (f : Z -> Z -> Z) (lhs rhs : list Z) (offset : nat) (out : list (option Z)) : result (list (option Z)) :=
  if negb (length rhs =? length lhs) then Panic
  else write_all out offset (map (fun '(x, y) => f x y) (combine lhs rhs)).
(** The loop 408-422 over the right-hand side's iterator; [k] bounds the number of batches. *)
Fixpoint binary_loop (p u : ptype) (f : Z -> Z -> Z) (lhs : list Z) (c : acc) (k idx offset : nat) (out : list (option Z)) : result (list (option Z)) :=
  match k with
  | 0 => Panic
  | S k' =>
      do nx <- iter_next c idx;
      match nx with
      | None => Ok out
      | Some (b, idx') =>
          do b' <- reinterpret p u b;
          let n := length (fst b') in
          if length lhs <? offset + n then Panic
          else do out' <- process_batch f (lslice lhs offset (offset + n)) (fst b') offset out; binary_loop p u f lhs c k' idx' (offset + n) out'
      end
  end.
(** The element type dyn_cast_array_iter asks for, elementwise.rs:23-92: u64 for f16. *)
Definition cast_type (p : ptype) : ptype := match p with F16 => U64 | p => p end.
(** BinaryFn for PrimitiveArray, primitive/mod.rs:378-430, for a function of [pi] and [pu] values to [po]. *)
Definition binary (pi pu po : ptype) (f : Z -> Z -> Z) (a b : array) : result array :=
  match a with
  | APrim p l v =>
      if negb (length l =? alen b) then Err
      else match adtype b with
      | DPrim q _ =>
          if negb (ptype_eqb p q) then Err
          else if negb (ptype_eqb p pi) then Err
          else
            do lv <- logical_validity b;
            do v' <- vand v (into_validity lv);
            match accessor (cast_type q) b with
            | None => Panic
            | Some c =>
                do out <- binary_loop q pu f l c (S (length l)) 0 0 (repeat None (length l));
                do res <- assume_init out;
                expect (try_prim po res v')
            end
      | _ => Err
      end
  | _ => Err
  end.
