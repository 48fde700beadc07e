(** ALP-RD float compression (encodings/alp/src/alp_rd): model and specification. *)
From Verif Require Import Base Spec SearchModel ValidityModel Arr ArrRead ArrWf ArrSlice IntEnc ArrOps DateTime Alp.

(** UINT, mod.rs:69, 89: the unsigned integers that hold the bits of a float. *)
Definition rd_uint (p : ptype) : ptype := match p with F32 => U32 | _ => U64 end.
(** bit_width!, mod.rs:22-30. *)
Definition bwidth (n : Z) : Z := if (n =? 0)%Z then 1%Z else (Z.log2 n + 1)%Z.

(** bitpack_encode_unchecked, fastlanes/src/bitpacking/compress.rs:44-64. *)
Definition bitpack_unchecked (p : ptype) (l : list Z) (v : validity) (bw : Z) : result array :=
  try_bitpacked p (bitpack_primitive (map (wrap (to_unsigned p)) l) bw) bw 0 (length l) v None.

(** * Choosing the dictionary *)

(** The left bits of a value, as a u16: mod.rs:185-187, 343. *)
Definition left_part (rbw z : Z) : Z := (Z.shiftr z rbw mod 65536)%Z.
(** RDEncoder, mod.rs:126-129. *)
Record rd_encoder := RDE { rde_width : Z; rde_codes : list Z }.
(** RDEncoder::new, find_best_dictionary and build_left_parts_dictionary, mod.rs:133-150, 305-378: for one of the 16 cut points (the one with the
    best estimated size: here, any), the distinct left parts of the sample in some order (most frequent first, ties in the order of a hash map:
    here, any order), at most 8 of them. An empty sample underflows at 367. *)
Definition rd_chosen (p : ptype) (sample : list Z) (r : result rd_encoder) : Prop :=
  match sample with
  | [] => r = Panic
  | _ => exists cut order, (1 <= cut <= 16)%Z /\ NoDup order /\ (forall x, In x order <-> In x (map (left_part (bits p - cut)) sample)) /\
           r = Ok (RDE (bits p - cut) (firstn 8 order))
  end.

(** * ALPRDArray *)

(** array.rs:18-24: left codes, dictionary, right bits, width of the right bits, exceptions. *)
Record alprd := RD { d_type : ptype; d_null : bool; d_left : array; d_dict : list Z; d_right : array; d_rbw : Z; d_exc : option array }.
Definition is_sparse (a : array) : bool := match a with ASparse _ _ _ _ _ => true | _ => false end.
(** ALPRDArray::try_new, array.rs:33-105. The dictionary is copied to an array of 8. *)
Definition try_rd (p : ptype) (n : bool) (lft : array) (dict : list Z) (rgt : array) (rbw : Z) (exc : option array) : result alprd :=
  if negb (is_float p) then Err
  else if negb (alen rgt =? alen lft) then Err
  else if negb (match adtype lft with DPrim q _ => is_unsigned q | _ => false end) then Err
  else if negb (Bool.eqb n (nullable (adtype lft))) then Err
  else if nullable (adtype rgt) then Err
  else if negb (match adtype rgt with DPrim q _ => is_unsigned q | _ => false end) then Err
  else if negb (match exc with Some q => is_sparse q | None => true end) then Err
  else if 8 <? length dict then Panic
  else Ok (RD p n lft dict rgt rbw exc).

(** The position of the left part in the dictionary, mod.rs:193. *)
Fixpoint code_of (codes : list Z) (x : Z) : option nat :=
  match codes with [] => None | y :: r => if (y =? x)%Z then Some 0 else match code_of r x with Some k => Some (S k) | None => None end end.
(** Lines 190-201. *)
Fixpoint rd_exceptions (codes : list Z) (i : nat) (lefts : list Z) : list (nat * Z) :=
  match lefts with
  | [] => []
  | x :: r => match code_of codes x with Some _ => rd_exceptions codes (S i) r | None => (i, x) :: rd_exceptions codes (S i) r end
  end.
Definition rd_code (codes : list Z) (x : Z) : Z := match code_of codes x with Some k => Z.of_nat k | None => 0%Z end.
(** RDEncoder::encode, mod.rs:155-250. *)
Definition rd_encode (en : rd_encoder) (p : ptype) (l : list Z) (v : validity) : result alprd :=
  let rbw := rde_width en in
  let codes := rde_codes en in
  if negb (match p with F32 | F64 => true | _ => false end) then Panic
  else match codes with
  | [] => Panic
  | _ =>
      let rights := map (fun z => Z.land z (2 ^ rbw - 1)) l in
      let lefts := map (left_part rbw) l in
      let exc := rd_exceptions codes 0 lefts in
      do pl <- expect (bitpack_unchecked U16 (map (rd_code codes) lefts) v (bwidth (Z.of_nat (length codes - 1))));
      do pr <- expect (bitpack_unchecked (rd_uint p) rights VNonNull rbw);
      do q <- (match exc with
               | [] => Ok None
               | _ => do ix <- expect (bitpack_unchecked U64 (map (fun e => Z.of_nat (fst e)) exc) VNonNull (bwidth (Z.of_nat (last (map fst exc) 0))));
                      do s <- expect (try_sparse ix (APrim U16 (map snd exc) VAllValid) (length l) 0 VNull); Ok (Some s)
               end);
      expect (try_rd p (nullable (adtype pl)) pl codes pr rbw q)
  end.

(** [left << rbw | right] in the unsigned integers of the float's width, mod.rs:299, scalar_at.rs:25, 29. *)
Definition combine (p : ptype) (rbw x r : Z) : Z := Z.lor (Z.shiftl x rbw mod 2 ^ bits p) r.
(** dict[code], mod.rs:287. *)
Definition dict_at (dict : list Z) (c : Z) : result Z := if (Z.of_nat (length dict) <=? c)%Z then Panic else Ok (nth (Z.to_nat c) dict 0%Z).
(** alp_rd_decode, mod.rs:260-301. A shift by the width of the type or more panics. *)
Definition rd_decode_slices (p : ptype) (lefts dict : list Z) (rbw : Z) (rights : list Z) (pos : list nat) (exc : list Z) : result (list Z) :=
  if negb (length lefts =? length rights) then Panic
  else if negb (length pos =? length exc) then Panic
  else
    do d <- mapM (dict_at dict) lefts;
    do d' <- set_many d pos exc;
    if (bits p <=? rbw)%Z && negb (length lefts =? 0) then Panic
    else Ok (map (fun xr => combine p rbw (fst xr) (snd xr)) (List.combine d' rights)).


(** ALPRDArray::into_canonical, array.rs:179-235. [maybe_null_slice] of another type panics. The validity is that of the left parts, through LogicalValidity. *)
Definition rd_decode (a : alprd) : result array :=
  do (lp, ll, _) <- into_prim (canon (d_left a));
  do (rp, rl, _) <- into_prim (canon (d_right a));
  do (pos, xs) <- (match d_exc a with
                   | None => Ok ([], [])
                   | Some (ASparse qi qv qo _ _) =>
                       do pos <- resolved_indices (canon qi) qo;
                       do (r, xs, _) <- into_prim (canon qv);
                       if ptype_eqb r U16 then Ok (pos, xs) else Panic
                   | Some _ => Panic
                   end);
  if negb (ptype_eqb lp U16) || negb (ptype_eqb rp (rd_uint (d_type a))) then Panic
  else
    do d <- rd_decode_slices (d_type a) ll (d_dict a) (d_rbw a) rl pos xs;
    do lv <- logical_validity (d_left a);
    expect (try_prim (d_type a) d (into_validity lv)).

(** scalar_at, compute/scalar_at.rs:8-32, behind the bounds and null checks of compute/unary/scalar_at.rs:12-27. *)
Definition rd_scalar_at (a : alprd) (i : nat) : result value :=
  if alen (d_left a) <=? i then Err
  else
    do ok <- is_valid (d_left a) i;
    if negb ok then Ok VNull
    else
      do patch <- (match d_exc a with Some q => is_valid q i | None => Ok false end);
      do lft <- (match d_exc a, patch with
                 | Some q, true => do x <- scalar_at q i; match x with VInt z => Ok z | _ => Err end
                 | _, _ => do x <- scalar_at (d_left a) i; match x with VInt c => dict_at (d_dict a) c | _ => Err end
                 end);
      do x <- scalar_at (d_right a) i;
      match x with
      | VInt r => if (bits (d_type a) <=? d_rbw a)%Z then Panic else Ok (VInt (combine (d_type a) (d_rbw a) lft r))
      | _ => Err
      end.
(** compute/slice.rs, take.rs, filter.rs. *)
Definition rd_slice (a : alprd) (i j : nat) : result alprd :=
  if slice_bad (alen (d_left a)) i j then Err
  else do q <- opt_map (fun x => slice x i j) (d_exc a); do l <- slice (d_left a) i j; do r <- slice (d_right a) i j;
       try_rd (d_type a) (d_null a) l (d_dict a) r (d_rbw a) q.
Definition rd_take (a : alprd) (ip : ptype) (idx : list nat) : result alprd :=
  do q <- opt_map (fun x => take x ip idx) (d_exc a); do l <- take (d_left a) ip idx; do r <- take (d_right a) ip idx;
  try_rd (d_type a) (d_null a) l (d_dict a) r (d_rbw a) q.
Definition rd_filter (a : alprd) (m : mask) : result alprd :=
  do q <- opt_map (fun x => filter_array x m) (d_exc a); do l <- filter_array (d_left a) m; do r <- filter_array (d_right a) m;
  try_rd (d_type a) (d_null a) l (d_dict a) r (d_rbw a) q.

(** * Specification *)

(** What one row stands for: null if the left code is null; else the left bits (the exception if there is one, else the dictionary
    entry) followed by the right bits. *)
Definition rd_row (p : ptype) (rbw : Z) (dict : list Z) (c x r : value) : value :=
  match c, r with
  | VInt k, VInt y => VInt (combine p rbw (match x with VInt z => z | _ => nth (Z.to_nat k) dict 0%Z end) y)
  | _, _ => VNull
  end.
(** The stored codes, those of null rows included. *)
Definition codes_in (n : nat) (a : array) : Prop :=
  match a with
  | APrim _ l _ => Forall (fun z => (0 <= z < Z.of_nat n)%Z) l
  | ABitPacked _ packed _ off len _ None => Forall (fun z => (0 <= z < Z.of_nat n)%Z) (lslice packed off (off + len))
  | _ => False
  end.
Definition exc_at (a : alprd) (i : nat) : value := match d_exc a with Some q => nth i (logical q) VNull | None => VNull end.
Definition rd_holds (g : flags) (a : alprd) (rows : list value) : Prop :=
  (d_type a = F32 \/ d_type a = F64) /\ (0 <= d_rbw a < bits (d_type a))%Z /\ length (d_dict a) <= 8 /\
  wf g (d_left a) /\ adtype (d_left a) = DPrim U16 (d_null a) /\ codes_in (length (d_dict a)) (d_left a) /\ length (logical (d_left a)) = length rows /\
  wf g (d_right a) /\ adtype (d_right a) = DPrim (rd_uint (d_type a)) false /\ length (logical (d_right a)) = length rows /\
  match d_exc a with Some q => patches_ok g U16 (length rows) q | None => True end /\
  forall i, i < length rows -> nth i rows VNull = rd_row (d_type a) (d_rbw a) (d_dict a) (nth i (logical (d_left a)) VNull) (exc_at a i) (nth i (logical (d_right a)) VNull).
