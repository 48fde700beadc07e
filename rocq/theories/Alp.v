(** ALP float compression (encodings/alp/src/alp): model and specification. *)
From Coq Require Import Floats.SpecFloat.
From Verif Require Import Base Spec CmpSpec SearchModel Arr ArrRead ArrWf ArrSlice IntEnc ArrOps DateTime Compare Scalars.

(** * ALPFloat *)

(** F32 arrays are stored as I32, F64 arrays as I64: mod.rs:249, 294. *)
Definition alp_int (p : ptype) : ptype := match p with F32 => I32 | _ => I64 end.
(** MAX_EXPONENT (mod.rs:251, 296) and the length of the tables F10 and IF10 (255-280, 299-351). *)
Definition max_exponent (p : ptype) : nat := match p with F32 => 10 | _ => 18 end.
Definition table_len (p : ptype) : nat := match p with F32 => 11 | _ => 24 end.
Definition exps_ok (p : ptype) (e f : nat) : bool := (e <? table_len p) && (f <? table_len p).
(** F10 and IF10, mod.rs:255-280, 299-351: the decimal literals, which the compiler rounds to the nearest float. *)
Definition f10 (p : ptype) (k : nat) : spec_float := binary_normalize (fprec p) (femax p) (10 ^ Z.of_nat k) 0 false.
Definition if10 (p : ptype) (k : nat) : spec_float :=
  match (10 ^ Z.of_nat k)%Z with
  | Zpos m => let '(q, e, l) := SFdiv_core_binary (fprec p) (femax p) 1 0 (Zpos m) 0 in binary_round_aux (fprec p) (femax p) false q e l
  | _ => S754_nan
  end.
(** SWEET, mod.rs:252, 297: 2^k + 2^(k-1) for k fractional bits. *)
Definition sweet (p : ptype) : spec_float := binary_normalize (fprec p) (femax p) (2 ^ mantissa p + 2 ^ (mantissa p - 1)) 0 false.
Definition fmul (p : ptype) := SFmul (fprec p) (femax p).
Definition fast_round (p : ptype) (x : spec_float) : spec_float := SFsub (fprec p) (femax p) (SFadd (fprec p) (femax p) x (sweet p)) (sweet p).
(** Rust's [as] from a float to an integer: truncating, saturating, NaN to 0. *)
Definition as_int (p : ptype) (x : spec_float) : Z :=
  match x with
  | S754_infinity s => if s then pmin p else pmax p
  | _ => match truncate x with Some z => Z.max (pmin p) (Z.min (pmax p) z) | None => 0 end
  end%Z.
(** encode_single_unchecked, mod.rs:168-173, and decode_single, 160-163, on bit patterns. The table indices are checked at the callers. *)
Definition alp_enc (p : ptype) (e f : nat) (z : Z) : Z :=
  as_int (alp_int p) (fast_round p (fmul p (fmul p (of_bits p z) (f10 p e)) (if10 p f))).
Definition alp_dec (p : ptype) (e f : nat) (n : Z) : Z :=
  to_bits p (fmul p (fmul p (binary_normalize (fprec p) (femax p) n 0 false) (f10 p f)) (if10 p e)).
(** [a == b] on floats. *)
Definition feqb (p : ptype) (x y : Z) : bool := match ieee_cmp p x y with Some Eq => true | _ => false end.
(** [decoded != value], mod.rs:193-194, 212-216. *)
Definition alp_bad (p : ptype) (e f : nat) (z : Z) : bool := negb (feqb p (alp_dec p e f (alp_enc p e f z)) z).
(** encode_single, mod.rs:142-150. *)
Definition encode_single (p : ptype) (e f : nat) (z : Z) : result (option Z) :=
  if exps_ok p e f then Ok (if alp_bad p e f z then None else Some (alp_enc p e f z)) else Panic.

(** encode_chunk_unchecked, mod.rs:176-246. State: encoded values, patch positions, patch values, fill value. *)
Record enc_state := ES { es_enc : list Z; es_pos : list nat; es_vals : list Z; es_fill : option Z }.
(** Lines 211-217: positions and values of the chunk's patches. *)
Fixpoint chunk_patches (bad : Z -> bool) (i : nat) (chunk : list Z) : list (nat * Z) :=
  match chunk with [] => [] | v :: r => if bad v then (i, v) :: chunk_patches bad (S i) r else chunk_patches bad (S i) r end.
(** Lines 229-234: the first position [i] with [i >= patch_indices.len() || patch_indices[i] != i]; [k] positions are left. *)
Fixpoint find_fill (enc : list Z) (pos : list nat) (i k : nat) : option Z :=
  match k with
  | 0 => None
  | S k' => if (length pos <=? i) || negb (nth i pos 0 =? i) then nth_error enc i else find_fill enc pos (S i) k'
  end.
Definition encode_chunk (enc1 : Z -> Z) (bad : Z -> bool) (st : enc_state) (chunk : list Z) : result enc_state :=
  let n0 := length (es_enc st) in
  let np := length (es_pos st) in
  let enc := es_enc st ++ map enc1 chunk in
  let cp := chunk_patches bad n0 chunk in
  let pos := es_pos st ++ map fst cp in
  let vals := es_vals st ++ map snd cp in
  do fill <- (match es_fill st with
              | None => if n0 + length cp <? length enc
                        then if n0 =? np then Ok (find_fill enc pos n0 (length chunk)) else Panic
                        else Ok None
              | Some x => Ok (Some x)
              end);
  let start := match es_fill st with None => 0 | Some _ => np end in
  let enc := match fill with Some x => fold_left (fun l i => list_set l i x) (skipn start pos) enc | None => enc end in
  Ok (ES enc pos vals fill).
(** The loop over chunks of 32 KB, mod.rs:114-140. *)
Fixpoint chunks_of (fuel n : nat) (l : list Z) : list (list Z) :=
  match fuel, l with
  | 0, _ | _, [] => []
  | S k, _ => firstn n l :: chunks_of k n (skipn n l)
  end.
Definition chunk_size (p : ptype) : Z := match p with F32 => 8192 | _ => 4096 end.
Definition encode_with (p : ptype) (e f : nat) (l : list Z) : result enc_state :=
  if negb (exps_ok p e f) && negb (length l =? 0) then Panic
  else foldM (encode_chunk (alp_enc p e f) (alp_bad p e f)) (ES [] [] [] None) (chunks_of (length l) (Z.to_nat (chunk_size p)) l).

(** find_best_exponents and estimate_encoded_size, mod.rs:57-112. *)
Definition sample_of (l : list Z) : list Z :=
  let n := length l in
  if 32 <? n then map (fun i => nth (i * (n / 32)) l 0%Z) (seq 0 ((n + n / 32 - 1) / (n / 32))) else l.
Definition min_list (l : list Z) : Z := match l with [] => 0 | x :: r => fold_left Z.min r x end%Z.
Definition max_list (l : list Z) : Z := match l with [] => 0 | x :: r => fold_left Z.max r x end%Z.
Definition estimate_size (p : ptype) (st : enc_state) : Z :=
  let l := es_enc st in
  let d := (max_list l - min_list l)%Z in
  let bw := match l with
            | [] => bits p
            | _ => if in_rangeb (alp_int p) d then (if d =? 0 then 0 else Z.log2 d + 1) else bits p
            end%Z in
  ((Z.of_nat (length l) * bw + 7) / 8 + Z.of_nat (length (es_pos st)) * (bits p / 8 + 2))%Z.
Definition best_step (p : ptype) (l : list Z) (best : nat * nat * option Z) (ef : nat * nat) : result (nat * nat * option Z) :=
  let '(be, bf, bn) := best in
  let '(e, f) := ef in
  do st <- encode_with p e f l;
  let size := estimate_size p st in
  match bn with
  | None => Ok (e, f, Some size)
  | Some b => if (size <? b)%Z then Ok (e, f, Some size)
              else if (size =? b)%Z && (e - f <? be - bf) then Ok (e, f, Some b) else Ok best
  end.
Definition candidates (p : ptype) : list (nat * nat) :=
  flat_map (fun e => map (fun f => (e, f)) (seq 0 e)) (rev (seq 0 (max_exponent p))).
Definition find_best_exponents (p : ptype) (l : list Z) : result (nat * nat) :=
  do b <- foldM (best_step p (sample_of l)) (0, 0, None) (candidates p); Ok (fst b).

(** * ALPArray *)

(** array.rs:21-24, 57-68: encoded child, exponents, optional patches child. *)
Record alp := ALP { l_enc : array; l_e : nat; l_f : nat; l_patches : option array }.
(** The data type that try_new derives from the encoded child, array.rs:38-42. *)
Definition alp_type (a : array) : result (ptype * bool) :=
  match adtype a with DPrim I32 n => Ok (F32, n) | DPrim I64 n => Ok (F64, n) | _ => Err end.
(** ALPArray::try_new, array.rs:33-77. *)
Definition try_alp (enc : array) (e f : nat) (patches : option array) : result alp :=
  do (p, n) <- alp_type enc;
  match patches with
  | None => Ok (ALP enc e f None)
  | Some q => if negb (alen q =? alen enc) then Err
              else if negb (dtype_eqb (adtype q) (DPrim p true)) then Err
              else Ok (ALP enc e f (Some q))
  end.
Definition alp_dtype (a : alp) : result dtype := do (p, n) <- alp_type (l_enc a); Ok (DPrim p n).
(** alp_encode and alp_encode_components, compress.rs:26-59; [exps] is Some for a caller's exponents. *)
Definition alp_encode (a : array) (exps : option (nat * nat)) : result alp :=
  match a with
  | APrim p l v =>
      if negb (match p with F32 | F64 => true | _ => false end) then Err
      else
        do (e, f) <- (match exps with Some x => Ok x | None => find_best_exponents p l end);
        do st <- encode_with p e f l;
        do q <- (match es_vals st with
                 | [] => Ok None
                 | _ => do s <- expect (try_sparse (APrim U64 (map Z.of_nat (es_pos st)) VNonNull) (APrim p (es_vals st) VAllValid)
                                          (length (es_enc st)) 0 VNull); Ok (Some s)
                 end);
        do _ <- expect (try_prim (alp_int p) (es_enc st) v);
        try_alp (APrim (alp_int p) (es_enc st) v) e f q
  | _ => Err
  end.
(** decompress, compress.rs:61-106, with PrimitiveArray::patch, primitive/mod.rs:168-185. [into_maybe_null_slice] of another type and
    [zip_eq] of different lengths panic. *)
Definition alp_decode (a : alp) : result array :=
  do (p, n) <- alp_type (l_enc a);
  do (q, l, v) <- into_prim (canon (l_enc a));
  if negb (exps_ok p (l_e a) (l_f a)) && negb (length l =? 0) then Panic
  else if negb (ptype_eqb q (alp_int p)) then Panic
  else
    let d := map (alp_dec p (l_e a) (l_f a)) l in
    match l_patches a with
    | None => Ok (APrim p d v)
    | Some (ASparse qi qv qo _ _) =>
        do pos <- resolved_indices (canon qi) qo;
        do (r, xs, _) <- into_prim (canon qv);
        if negb (ptype_eqb r p) then Panic
        else if negb (length pos =? length xs) then Panic
        else do d' <- set_many d pos xs; Ok (APrim p d' v)
    | Some _ => Err
    end.
(** scalar_at, compute.rs:36-59, behind the bounds and null checks of compute/unary/scalar_at.rs:12-27 (is_valid: array.rs:259-262). *)
Definition alp_scalar_at (a : alp) (i : nat) : result value :=
  if alen (l_enc a) <=? i then Err
  else
    do ok <- is_valid (l_enc a) i;
    if negb ok then Ok VNull
    else
      do patch <- (match l_patches a with Some q => is_valid q i | None => Ok false end);
      match l_patches a, patch with
      | Some q, true => scalar_at_unchecked q i
      | _, _ =>
          do (p, n) <- alp_type (l_enc a);
          do x <- scalar_at_unchecked (l_enc a) i;
          match x with
          | VInt z => if exps_ok p (l_e a) (l_f a) then Ok (VInt (alp_dec p (l_e a) (l_f a) z)) else Panic
          | _ => Panic
          end
      end.
Definition opt_map (h : array -> result array) (q : option array) : result (option array) :=
  match q with None => Ok None | Some x => do y <- h x; Ok (Some y) end.
(** slice, take, filter, compute.rs:61-93. *)
Definition alp_slice (a : alp) (i j : nat) : result alp :=
  if slice_bad (alen (l_enc a)) i j then Err
  else do c <- slice (l_enc a) i j; do q <- opt_map (fun x => slice x i j) (l_patches a); try_alp c (l_e a) (l_f a) q.
Definition alp_take (a : alp) (ip : ptype) (idx : list nat) : result alp :=
  do c <- take (l_enc a) ip idx; do q <- opt_map (fun x => take x ip idx) (l_patches a); try_alp c (l_e a) (l_f a) q.
Definition alp_filter (a : alp) (m : mask) : result alp :=
  do c <- filter_array (l_enc a) m; do q <- opt_map (fun x => filter_array x m) (l_patches a); try_alp c (l_e a) (l_f a) q.
(** compare with a constant: compute/compare.rs:81-124, then compute.rs:95-147. An empty constant panics in scalar_at(array, 0). *)
Definition all_false (n : nat) : array := ABool 0 (repeat false n) n VAllValid.
Definition alp_compare (a : alp) (d : dtype) (x : value) (n : nat) (op : cop) : result array :=
  do (p, nl) <- alp_type (l_enc a);
  if negb (alen (l_enc a) =? n) then Err
  else if negb (dtype_eqb (erase (DPrim p nl)) (erase d)) then Err
  else if n =? 0 then Panic
  else
    match x with
    | VInt z =>
        do r <- encode_single p (l_e a) (l_f a) z;
        match r with
        | Some k => compare (l_enc a) (AConst (DPrim (alp_int p) false) (VInt k) n) op
        | None => match l_patches a with
                  | Some q => compare q (AConst (DPrim p false) (VInt z) n) op
                  | None => Ok (all_false n)
                  end
        end
    | VNull => Ok (all_false n)
    | _ => Panic
    end.

(** * Specification *)

(** What one row of an ALP array stands for: null if the encoded value is null, the patch if there is one, else the decoded integer. *)
Definition alp_row (p : ptype) (e f : nat) (x patch : value) : value :=
  match x with
  | VInt n => match patch with VInt z => VInt z | _ => VInt (alp_dec p e f n) end
  | _ => VNull
  end.
(** Patches are a sparse array of floats, null where there is no patch. *)
Definition patches_ok (g : flags) (p : ptype) (n : nat) (q : array) : Prop :=
  wf g q /\ adtype q = DPrim p true /\ exists idx vals off, q = ASparse idx vals off n VNull.
Definition patch_at (a : alp) (i : nat) : value := match l_patches a with Some q => nth i (logical q) VNull | None => VNull end.
Definition alp_holds (g : flags) (p : ptype) (n : bool) (a : alp) (rows : list value) : Prop :=
  (p = F32 \/ p = F64) /\ exps_ok p (l_e a) (l_f a) = true /\
  wf g (l_enc a) /\ adtype (l_enc a) = DPrim (alp_int p) n /\ length (logical (l_enc a)) = length rows /\
  match l_patches a with Some q => patches_ok g p (length rows) q | None => True end /\
  forall i, i < length rows -> nth i rows VNull = alp_row p (l_e a) (l_f a) (nth i (logical (l_enc a)) VNull) (patch_at a i).
(** The float -0.0 becomes +0.0; every other value stays as it is, bit by bit. *)
Definition minus_zero (p : ptype) : Z := sign_bit p.
Definition drop_zero_sign (p : ptype) (x : value) : value :=
  match x with VInt z => if (z =? minus_zero p)%Z then VInt 0 else x | _ => x end.
