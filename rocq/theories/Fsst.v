(** FSST string compression (encodings/fsst): model, specification and the facts about code strings. *)
From Verif Require Import Base Spec CmpSpec SearchModel SearchProofs Arr ArrRead ArrWf ArrReadProofs ArrSearchProofs ArrSlice ArrSliceProofs ArrSliceMain
  ValidityModel PropValidity IntEnc PropIntEnc RunEnc PropRunEnc PropUnary PropDict ArrOps OpsBase OpsFlat OpsCanon OpsCanon2 OpsCanon3 OpsTake OpsVarBin OpsFilter OpsFilter2
  OpsChunked OpsMain PropRead PropSlice PropOps PropVarBin DateTime StatsModel Compare.

(** * The fsst-rs library

    fsst-rs is a dependency, not part of /repo. Its decompressor is modelled from its documented format: a code below 255 stands for a
    symbol of up to 8 bytes, kept as a little-endian 64-bit word and a length; code 255 escapes the next byte. A code without a symbol, a
    symbol longer than 8 bytes or an escape at the end (out-of-bounds reads in the library) are [Panic] here. *)
Definition escape : Z := 255%Z.
Fixpoint le_bytes (n : nat) (w : Z) : list Z := match n with 0 => [] | S k => (w mod 256)%Z :: le_bytes k (w / 256)%Z end.
Fixpoint le_word (s : list Z) : Z := match s with [] => 0%Z | b :: r => (b + 256 * le_word r)%Z end.
Definition symbol_at (t : list (Z * Z)) (c : Z) : option (list Z) :=
  match nth_error t (Z.to_nat c) with
  | Some (w, n) => if ((0 <=? n) && (n <=? 8))%Z then Some (le_bytes (Z.to_nat n) w) else None
  | None => None
  end.
Fixpoint decompress (t : list (Z * Z)) (cs : list Z) : result (list Z) :=
  match cs with
  | [] => Ok []
  | c :: r =>
      if (c =? escape)%Z then match r with [] => Panic | b :: r' => do s <- decompress t r'; Ok (b :: s) end
      else match symbol_at t c with None => Panic | Some x => do s <- decompress t r; Ok (x ++ s) end
  end.

(** * FSSTArray *)

(** array.rs:16-26: a Utf8 or Binary array; symbol words, symbol lengths, codes and uncompressed lengths are child arrays. *)
Record fsst := FSST { s_utf8 : bool; s_nl : bool; s_syms : array; s_lens : array; s_codes : array; s_ulens : array }.
(** FSSTArray::try_new, array.rs:43-105. *)
Definition is_varbin (a : array) : bool := match a with AVarBin _ _ _ _ => true | _ => false end.
Definition is_binary (d : dtype) : bool := match d with DBinary _ => true | _ => false end.
Definition try_fsst (u nl : bool) (syms lens codes ulens : array) : result fsst :=
  if negb (dtype_eqb (adtype syms) (DPrim U64 false)) then Err
  else if negb (dtype_eqb (adtype lens) (DPrim U8 false)) then Err
  else if (255 <? Z.of_nat (alen syms))%Z then Err
  else if negb (alen syms =? alen lens) then Err
  else if negb (alen ulens =? alen codes) then Err
  else if negb (int_nonnull (adtype ulens)) then Err
  else if negb (is_varbin codes) then Err
  else if negb (is_binary (adtype codes)) then Err
  else Ok (FSST u nl syms lens codes ulens).
(** with_decompressor, array.rs:161-189. *)
Definition symbol_table (a : fsst) : result (list (Z * Z)) :=
  do (_, ws, _) <- into_prim (canon (s_syms a)); do (_, ns, _) <- into_prim (canon (s_lens a)); Ok (combine ws ns).

(** fsst_compress_iter, compress.rs:83-129, and fsst_compress, 19-41. [syms] are the symbols and [comp] the compress function of the
    trained compressor. Simplification: the 16 MB scratch buffer (93) is not modelled; strings over 8 MB would overflow it. *)
Definition ulen (x : option (list Z)) : Z := match x with Some s => wrap I32 (Z.of_nat (length s)) | None => 0%Z end.
Definition fsst_compress_iter (u nl : bool) (syms : list (list Z)) (comp : list Z -> list Z) (L : list (option (list Z))) : result fsst :=
  do codes <- vb_build false nl I32 (map (option_map comp) L);
  expect (try_fsst u nl (APrim U64 (map le_word syms) VNonNull) (APrim U8 (map (fun x => Z.of_nat (length x)) syms) VNonNull)
            codes (APrim I32 (map ulen L) VNonNull)).
Definition fsst_compress (syms : list (list Z)) (comp : list Z -> list Z) (a : array) : result fsst :=
  match a with
  | AVarBin u _ _ _ | AView u _ _ _ => fsst_compress_iter u (nullable (adtype a)) syms comp (str_opts (logical a))
  | _ => Err
  end.

(** into_canonical, canonical.rs:7-58, with VarBinArray::sliced_bytes, varbin/mod.rs:128-136. [maybe_null_slice::<i32>] panics on
    another integer type; [offset += len] panics on overflow (it wraps in builds without overflow checks). *)
Definition usize_of (x : value) : result Z := match x with VInt z => if (0 <=? z)%Z then Ok z else Err | _ => Err end.
Definition sliced_bytes (offs : array) (bytes : list Z) : result (list Z) :=
  do x <- scalar_at offs 0; do s <- usize_of x; do y <- scalar_at offs (alen offs - 1); do e <- usize_of y; bytes_slice bytes s e.
Fixpoint acc_offsets (o : Z) (ls : list Z) : result (list Z) :=
  match ls with
  | [] => Ok [o]
  | l :: r => if in_rangeb I32 (o + l)%Z then do x <- acc_offsets (o + l)%Z r; Ok (o :: x) else Panic
  end.
Definition fsst_canon (a : fsst) : result array :=
  do t <- symbol_table a;
  match s_codes a with
  | AVarBin _ offs bytes v =>
      do cs <- sliced_bytes offs bytes;
      do out <- decompress t cs;
      do (p, ls, _) <- into_prim (canon (s_ulens a));
      if negb (ptype_eqb p I32) then Panic
      else do ol <- acc_offsets 0 ls;
           do r <- try_varbin (s_utf8 a) (APrim I32 ol VNonNull) out v; canon r
  | _ => Err
  end.

(** scalar_at, compute.rs:128-145, behind the bounds and null checks of compute/unary/scalar_at.rs:12-27 (is_valid: array.rs:203-206). *)
Definition fsst_scalar_at (a : fsst) (i : nat) : result value :=
  if alen (s_codes a) <=? i then Err
  else do ok <- is_valid (s_codes a) i;
       if negb ok then Ok VNull
       else do c <- scalar_at_unchecked (s_codes a) i;
            match c with
            | VBytes cs => do t <- symbol_table a; do s <- decompress t cs; bytes_scalar (s_utf8 a) s
            | _ => Err
            end.
(** slice, take, filter, compute.rs:99-126, 147-159. *)
Definition fsst_slice (a : fsst) (i j : nat) : result fsst :=
  if slice_bad (alen (s_codes a)) i j then Err
  else do c <- slice (s_codes a) i j; do l <- slice (s_ulens a) i j; try_fsst (s_utf8 a) (s_nl a) (s_syms a) (s_lens a) c l.
Definition fsst_take (a : fsst) (ip : ptype) (idx : list nat) : result fsst :=
  do c <- take (s_codes a) ip idx; do l <- take (s_ulens a) ip idx; try_fsst (s_utf8 a) (s_nl a) (s_syms a) (s_lens a) c l.
Definition fsst_filter (a : fsst) (m : mask) : result fsst :=
  do c <- filter_array (s_codes a) m; do l <- filter_array (s_ulens a) m; try_fsst (s_utf8 a) (s_nl a) (s_syms a) (s_lens a) c l.
(** compare with a constant: compute/compare.rs:81-124, then compute.rs:37-97 for Eq and NotEq; the other operators decode.
    [build] is the compressor that fsst-rs builds from a symbol table (CompressorBuilder::insert for each symbol, then build). *)
Definition fsst_dtype (a : fsst) : dtype := str_dtype (s_utf8 a) (s_nl a).
Definition fsst_compare (build : list (Z * Z) -> list Z -> list Z) (a : fsst) (d : dtype) (x : value) (n : nat) (op : cop) : result array :=
  if negb (alen (s_codes a) =? n) then Err
  else if negb (dtype_eqb (erase (fsst_dtype a)) (erase d)) then Err
  else match op with
       | CEq | CNe =>
           do t <- symbol_table a;
           match x with
           | VNull => Ok (AConst d x n)
           | VBytes s => compare (s_codes a) (AConst (DBinary false) (VBytes (build t s)) (alen (s_codes a))) op
           | _ => Err
           end
       | _ => do l <- fsst_canon a; do r <- canon (AConst d x n); arrow_cmp op l r
       end.

(** * Specification *)

(** [spells syms cs s]: the code string [cs] stands for the bytes [s]: symbol numbers below 255, or 255 and the byte itself. *)
Inductive spells (syms : list (list Z)) : list Z -> list Z -> Prop :=
| sp_nil : spells syms [] []
| sp_sym c x cs s : (0 <= c < 255)%Z -> nth_error syms (Z.to_nat c) = Some x -> spells syms cs s -> spells syms (c :: cs) (x ++ s)
| sp_esc b cs s : spells syms cs s -> spells syms (255%Z :: b :: cs) (b :: s).
(** The symbols: at most 255, of at most 8 bytes. *)
Definition is_byte (z : Z) : Prop := (0 <= z < 256)%Z.
Definition symbols_ok (syms : list (list Z)) : Prop := (Z.of_nat (length syms) <= 255)%Z /\ Forall (fun x => length x <= 8 /\ Forall is_byte x) syms.
(** Row by row: null code and length 0 for null; otherwise codes that spell the string, and its length. *)
Definition srow (u : bool) (syms : list (list Z)) (c l : value) (r : option (list Z)) : Prop :=
  match r with
  | None => c = VNull /\ l = VInt 0
  | Some s => (u = true -> utf8_valid s = true) /\ (exists cs, c = VBytes cs /\ spells syms cs s) /\ l = VInt (Z.of_nat (length s))
  end.
(** The codes are a VarBin array with plain offsets in which null rows take no bytes. *)
Definition tight (a : array) : Prop :=
  match a with
  | AVarBin _ (APrim _ ol _) _ v => forall i, i < length ol - 1 -> vvalid v i = false -> nth (i + 1) ol 0%Z = nth i ol 0%Z
  | _ => False
  end.
Definition has_symbols (f : flags) (a : fsst) (syms : list (list Z)) : Prop :=
  wf f (s_syms a) /\ adtype (s_syms a) = DPrim U64 false /\ wf f (s_lens a) /\ adtype (s_lens a) = DPrim U8 false /\
  length (logical (s_syms a)) = length syms /\ length (logical (s_lens a)) = length syms /\ symbols_ok syms /\
  forall k, k < length syms -> nth k (logical (s_syms a)) VNull = VInt (le_word (nth k syms [])) /\ nth k (logical (s_lens a)) VNull = VInt (Z.of_nat (length (nth k syms []))).
Definition holds (f : flags) (p : ptype) (syms : list (list Z)) (a : fsst) (rows : list (option (list Z))) : Prop :=
  has_symbols f a syms /\ vb_plain p (s_codes a) /\ tight (s_codes a) /\ adtype (s_codes a) = DBinary (s_nl a) /\
  wf f (s_ulens a) /\ adtype (s_ulens a) = DPrim I32 false /\
  length (logical (s_codes a)) = length rows /\ length (logical (s_ulens a)) = length rows /\
  forall i, i < length rows -> srow (s_utf8 a) syms (nth i (logical (s_codes a)) VNull) (nth i (logical (s_ulens a)) VNull) (nth i rows None).

(** * Facts about code strings *)
Lemma le_bytes_word s : Forall is_byte s -> le_bytes (length s) (le_word s) = s.
Proof.
  induction 1 as [|b r Hb Hr IH]; [reflexivity|]. unfold is_byte in Hb. cbn [length le_bytes le_word]. f_equal.
  - rewrite (Z.mul_comm 256), Z_mod_plus_full. apply Z.mod_small. lia.
  - rewrite Z.mul_comm, Z_div_plus_full by lia. rewrite (Z.div_small b 256) by lia. exact IH.
Qed.
Lemma le_word_range s : Forall is_byte s -> (0 <= le_word s < 256 ^ Z.of_nat (length s))%Z.
Proof.
  induction 1 as [|b r Hb Hr IH]; [cbn; lia|]. unfold is_byte in Hb. cbn [length le_word]. rewrite Nat2Z.inj_succ, Z.pow_succ_r by lia. lia.
Qed.
Lemma le_word_u64 s : Forall is_byte s -> length s <= 8 -> in_range U64 (le_word s).
Proof.
  intros B L. pose proof (le_word_range s B) as H. assert (256 ^ Z.of_nat (length s) <= 256 ^ 8)%Z by (apply Z.pow_le_mono_r; lia).
  unfold in_range. change (pmin U64) with 0%Z. change (pmax U64) with (256 ^ 8 - 1)%Z. lia.
Qed.

Lemma spells_app syms c1 s1 c2 s2 : spells syms c1 s1 -> spells syms c2 s2 -> spells syms (c1 ++ c2) (s1 ++ s2).
Proof.
  intros H H2. induction H as [|c x cs s Hc Hx H IH|b cs s H IH]; [exact H2| |].
  - rewrite <- app_assoc. cbn [app]. econstructor; eauto.
  - cbn [app]. constructor. exact IH.
Qed.
Definition table_of (syms : list (list Z)) : list (Z * Z) := map (fun x => (le_word x, Z.of_nat (length x))) syms.
Lemma symbol_at_table syms c x : symbols_ok syms -> nth_error syms (Z.to_nat c) = Some x -> symbol_at (table_of syms) c = Some x.
Proof.
  intros [_ F] H. unfold symbol_at, table_of. rewrite (map_nth_error _ _ _ H). rewrite Forall_forall in F. destruct (F x (nth_error_In _ _ H)) as [L B].
  rewrite (proj2 (Z.leb_le _ _)) by lia. rewrite (proj2 (Z.leb_le _ _)) by lia. cbn [andb]. rewrite Nat2Z.id, le_bytes_word by exact B. reflexivity.
Qed.
(** Decompressing codes gives what they spell, so codes spell at most one string. *)
Lemma decompress_spells syms cs s : symbols_ok syms -> spells syms cs s -> decompress (table_of syms) cs = Ok s.
Proof.
  intros O H. induction H as [|c x cs s Hc Hx H IH|b cs s H IH]; [reflexivity| |]; cbn [decompress]; unfold escape.
  - rewrite (proj2 (Z.eqb_neq _ _)) by lia. rewrite (symbol_at_table syms c x O Hx), IH. reflexivity.
  - rewrite Z.eqb_refl, IH. reflexivity.
Qed.

Lemma symbol_table_ok f a syms : has_symbols f a syms -> fc f = true -> fC f = true -> symbol_table a = Ok (table_of syms).
Proof.
  intros (W1 & T1 & W2 & T2 & L1 & L2 & _ & H) C CC. unfold symbol_table.
  destruct (canon_prim f _ U64 false W1 C CC T1) as (ws & v & E1 & N1 & _ & _ & D1). destruct (canon_prim f _ U8 false W2 C CC T2) as (ns & w & E2 & N2 & _ & _ & D2).
  rewrite E1, E2. cbn [bind]. f_equal. rewrite <- D1, prim_len in L1. rewrite <- D2, prim_len in L2.
  apply (nth_ext_len _ _ (0, 0)%Z). { rewrite combine_length. unfold table_of. rewrite map_length. lia. }
  rewrite combine_length. intros k Hk. rewrite combine_nth by congruence. unfold table_of. rewrite (map_nth_lt _ syms []) by lia.
  destruct (H k ltac:(lia)) as [H1 H2]. rewrite <- D1, nth_prim in H1 by lia. rewrite <- D2, nth_prim in H2 by lia.
  destruct (vvalid v k); [|discriminate]. destruct (vvalid w k); [|discriminate]. congruence.
Qed.
