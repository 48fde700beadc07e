(** How the sampling compressor chooses encodings, vortex-sampling-compressor/src: lib.rs:198-466, compressors/mod.rs:61-178,
    chunked.rs:45-156, struct_.rs:31-60 and the [cost], [can_compress] and [compress] of the compressors in Compressor.v.

    Compared with Compressor.v, where the choices are given, here they are made as in the code: by compressing samples and comparing
    sizes, and by reusing the choices made for an earlier chunk. Not modelled, as there: the other compressors, validity arrays,
    and log messages. Numbers are unbounded, except the products of [stratified_slices]. *)
From Verif Require Import Base Spec Arr ArrRead ArrWf ArrSlice ValidityModel StatsModel ArrOps IntEnc RunEnc DictEnc Sampling Compressor.

(** The compressors; [CBit] is BITPACK_WITH_PATCHES or BITPACK_NO_PATCHES. *)
Inductive codec := CConst | CChunked | CStruct | CFoR | CZigZag | CBit (allow_patches : bool) | CRunEnd | CDict | CSparse.
(** [id() == id()], mod.rs:49-53. *)
Definition codec_eqb (x y : codec) : bool :=
  match x, y with
  | CConst, CConst | CChunked, CChunked | CStruct, CStruct | CFoR, CFoR | CZigZag, CZigZag | CRunEnd, CRunEnd | CDict, CDict | CSparse, CSparse => true
  | CBit a, CBit b => Bool.eqb a b
  | _, _ => false
  end.
(** constants.rs:3-27; chunked.rs:37, struct_.rs:21. *)
Definition cost (c : codec) : nat := match c with CFoR | CRunEnd | CDict => 1 | _ => 0 end.
(** The compressor with the id of an array's encoding, if there is one. *)
Definition own_codec (a : array) : option codec :=
  match a with
  | AConst _ _ _ => Some CConst | AChunked _ _ => Some CChunked | AStruct _ _ _ _ => Some CStruct | AFoR _ _ _ _ => Some CFoR
  | AZigZag _ => Some CZigZag | ABitPacked _ _ _ _ _ _ _ => Some (CBit true) | ARunEnd _ _ _ _ _ => Some CRunEnd
  | ADict _ _ => Some CDict | ASparse _ _ _ _ _ => Some CSparse
  | _ => None
  end.

(** CompressionTree, mod.rs:61-66. The only metadata here is that of the chunked compressor, chunked.rs:24: an optional ratio, kept as
    its two operands. *)
Definition ratio := (nat * nat)%type.
Inductive tree := Tree (c : codec) (children : list (option tree)) (meta : option (option ratio)).
Definition troot (t : tree) : codec := match t with Tree c _ _ => c end.
(** num_descendants, mod.rs:161-166. *)
Fixpoint descendants (t : tree) : nat :=
  match t with Tree _ ts _ => list_sum (map (fun o => match o with Some u => descendants u + 1 | None => 0 end) ts) end.
(** [like.as_ref().and_then(|l| l.child(k))], mod.rs:120-122. *)
Definition child_of (like : option tree) (k : nat) : result (option tree) :=
  match like with
  | None => Ok None
  | Some (Tree _ ts _) => match nth_error ts k with Some o => Ok o | None => Panic end
  end.

(** CompressedArray, mod.rs:180-184. *)
Definition compressed := (array * option tree)%type.
Definition uncompressed (a : array) : compressed := (a, None).

(** SamplingCompressor, lib.rs:138-146. [enabled] is the set in the order the code happens to iterate over it. *)
Record ctx := Ctx { enabled : list codec; disabled : list codec; cdepth : nat }.
Definition mem (c : codec) (l : list codec) : bool := existsb (codec_eqb c) l.

Section Chooser.
  (** nbytes() of an array. *)
  Variable nb : array -> nat.
  (** CompressConfig, lib.rs:98-117. *)
  Variables target_bytes target_rows : nat.
  Variables sample_size sample_count : nat.
  Variable max_cost : nat.
  Variable overhead : nat.
  (** The generator, seeded with the same seed for every sample, lib.rs:272. *)
  Variable draw : nat -> nat.
  (** Comparisons of f32 quotients, chunked.rs:124-130: [ratio > 1.0] and [ratio > target_ratio * 1.2]. *)
  Variable above_one : ratio -> bool.
  Variable exceeds : ratio -> ratio -> bool.
  (** [array.len() / run_count < 2.0] is false, runend.rs:35-42. *)
  Variable long_runs : array -> bool.
  (** Inserting in a hash set, which may also reorder it. *)
  Variable insert : codec -> list codec -> list codec.

  (** lib.rs:200-228. *)
  Definition auxiliary (x : ctx) : ctx := Ctx (enabled x) [] (cdepth x).
  Definition for_compressor (c : codec) (x : ctx) : ctx := Ctx (enabled x) (disabled x) (cdepth x + cost c).
  Definition excluding (c : codec) (x : ctx) : ctx := Ctx (enabled x) (c :: disabled x) (cdepth x).
  Definition including (c : codec) (x : ctx) : ctx := Ctx (insert c (enabled x)) (disabled x) (cdepth x).

  (** can_compress of each compressor. *)
  Definition can_compress (c : codec) (a : array) : bool :=
    match c with
    | CConst => negb (alen a =? 0) && match s_const (stats_after KConst a) with Some b => b | None => false end  (* constant.rs:25-28 *)
    | CChunked => match a with AChunked _ _ => true | _ => false end
    | CStruct => match a with AStruct _ _ _ _ => true | _ => false end
    | CFoR => match a with APrim p l v => for_applies p l v | _ => false end
    | CZigZag => match a with APrim p l v => zigzag_applies p l v | _ => false end
    | CBit allow =>  (* bitpacked.rs:55-72; no frequencies: find_bit_width fails *)
        match a with
        | APrim p l v =>
            is_unsigned p &&
            match s_bw (stats_after KBw a) with
            | Some freq => match find_bit_width allow p freq with Ok bw => negb (bw =? nbits p) | _ => false end
            | None => false
            end
        | _ => false
        end
    | CRunEnd => match a with APrim _ _ _ => long_runs a | _ => false end
    | CDict => match dict_of a with Some _ => negb (strict a) | None => false end
    | CSparse => match a with ASparse _ _ _ _ _ => true | _ => false end
    end.

  (** What the compressors call: compress and compress_array of a context. *)
  Definition recursion := ctx -> option tree -> array -> result compressed.
  Section Step.
    Variable rec : recursion.
    Variable reca : ctx -> array -> result compressed.

    Definition leaf (c : codec) (a : array) (ts : list (option tree)) : compressed := (a, Some (Tree c ts None)).

    (** constant.rs:30-40. *)
    Definition c_const (a : array) : result compressed :=
      do s <- scalar_at a 0; Ok (leaf CConst (AConst (adtype a) s (alen a)) []).
    (** for.rs:53-88. *)
    Definition c_for (like : option tree) (x : ctx) (a : array) : result compressed :=
      match a with
      | APrim p l v =>
          do r <- for_compress p l v;
          match r with
          | AFoR q e ref shift =>
              do k <- child_of like 0; do (e', t) <- rec (excluding CFoR x) k e;
              do r' <- try_for q e' ref shift; Ok (leaf CFoR r' [t])
          | r => do (r', t) <- rec (excluding CFoR x) like r; Ok (leaf CFoR r' [t])
          end
      | _ => Err
      end.
    (** zigzag.rs:43-56. *)
    Definition c_zigzag (like : option tree) (x : ctx) (a : array) : result compressed :=
      match a with
      | APrim p l v =>
          do r <- zigzag_encode p l v;
          match r with
          | AZigZag e => do k <- child_of like 0; do (e', t) <- rec x k e; do r' <- try_zigzag e'; Ok (leaf CZigZag r' [t])
          | _ => Err
          end
      | _ => Err
      end.
    (** bitpacked.rs:74-130. *)
    Definition c_bit (allow : bool) (like : option tree) (x : ctx) (a : array) : result compressed :=
      match a with
      | APrim p l v =>
          match s_bw (stats_after KBw a) with
          | None => Err
          | Some freq =>
              do bw <- find_bit_width allow p freq;
              let exceptions := count_exceptions bw freq in
              if negb allow && (0 <? exceptions) then Panic
              else if bw =? nbits p then Ok (uncompressed a)
              else
                let packed := bitpack_primitive (map (wrap (to_unsigned p)) l) (Z.of_nat bw) in
                do (patches, t) <- (match (if 0 <? exceptions then gather_patches p l v bw else None) with
                                    | Some q =>
                                        do k <- child_of like 0;
                                        do (q', t) <- rec (including (CBit false) (excluding (CBit true) (auxiliary x))) k q; Ok (Some q', t)
                                    | None => Ok (None, None)
                                    end);
                do r <- try_bitpacked p packed (Z.of_nat bw) 0 (length l) v patches; Ok (leaf (CBit allow) r [t])
          end
      | _ => Err
      end.
    (** runend.rs:47-76, runend/src/array.rs:37-45. *)
    Definition c_runend (like : option tree) (x : ctx) (a : array) : result compressed :=
      match a with
      | APrim p l v =>
          let '(ends, vals) := ree_encode_primitive p l in
          do k0 <- child_of like 0; do (e, te) <- rec (auxiliary x) k0 (APrim U64 ends VNonNull);
          do k1 <- child_of like 1; do (y, ty) <- rec (excluding CRunEnd x) k1 (APrim p vals (if vnullable v then VAllValid else VNonNull));
          do n <- (if alen e =? 0 then Ok 0 else do z <- scalar_at e (alen e - 1); to_usize z);
          do r <- try_runend e y v 0 n; Ok (leaf CRunEnd r [te; ty])
      | _ => Err
      end.
    (** dict.rs:49-88. *)
    Definition c_dict (like : option tree) (x : ctx) (a : array) : result compressed :=
      match dict_of a with
      | Some (codes, vals) =>
          do vals <- dict_views a vals;
          do k0 <- child_of like 0; do (c, tc) <- rec (excluding CDict (auxiliary x)) k0 codes;
          do k1 <- child_of like 1; do (y, ty) <- rec (excluding CDict x) k1 vals;
          do r <- try_dict c y; Ok (leaf CDict r [tc; ty])
      | None => Panic
      end.
    (** sparse.rs:27-52: both parts are compressed like the first child. *)
    Definition c_sparse (like : option tree) (x : ctx) (a : array) : result compressed :=
      match a with
      | ASparse idx vals off len fill =>
          do k0 <- child_of like 0; do (i, ti) <- rec (auxiliary x) k0 idx;
          do k1 <- child_of like 0; do (y, ty) <- rec x k1 vals;
          do r <- try_sparse i y len 0 fill; Ok (leaf CSparse r [ti; ty])
      | _ => Err
      end.
    (** struct_.rs:31-60; [zip_eq] panics if the lengths differ. *)
    Fixpoint c_fields (x : ctx) (fls : list array) (likes : list (option tree)) : result (list array * list (option tree)) :=
      match fls, likes with
      | [], [] => Ok ([], [])
      | f :: fls, k :: likes => do (f', t) <- rec x k f; do (fls', ts) <- c_fields x fls likes; Ok (f' :: fls', t :: ts)
      | _, _ => Panic
      end.
    Definition c_struct (like : option tree) (x : ctx) (a : array) : result compressed :=
      match a with
      | AStruct ns fls n v =>
          let likes := match like with Some (Tree _ ts _) => ts | None => repeat None (length fls) end in
          do (fls', ts) <- c_fields x fls likes; do r <- try_struct ns fls' n v; Ok (leaf CStruct r ts)
      | _ => Err
      end.
    (** like_into_parts, chunked.rs:61-90. *)
    Definition like_into_parts (like : option tree) : result (option (tree * ratio)) :=
      match like with
      | None => Ok None
      | Some (Tree _ [None] (Some None)) => Ok None
      | Some (Tree _ [Some t] (Some (Some r))) => Ok (Some (t, r))
      | Some _ => Err
      end.
    (** The loop of compress_chunked, chunked.rs:117-140. *)
    Fixpoint c_chunk_loop (x : ctx) (previous : option (tree * ratio)) (cs : list array) : result (list array * option (tree * ratio)) :=
      match cs with
      | [] => Ok ([], previous)
      | c :: cs =>
          do (c', t) <- rec x (option_map fst previous) c;
          let r := (nb c', nb c) in
          let exceeded := match previous with Some (_, target) => exceeds r target | None => false end in
          do (c', previous) <-
            (if above_one r || exceeded then
               do (c', t) <- reca x c; Ok (c', option_map (fun t => (t, (nb c', nb c))) t)
             else Ok (c', match previous with Some q => Some q | None => option_map (fun t => (t, r)) t end));
          do (cs', last) <- c_chunk_loop x previous cs; Ok (c' :: cs', last)
      end.
    (** chunked.rs:106-156. *)
    Definition c_chunked (like : option tree) (x : ctx) (a : array) : result compressed :=
      match a with
      | AChunked d cs =>
          do previous <- like_into_parts like;
          do cs' <- rechunk nb target_bytes target_rows d cs;
          do (cs'', last) <- c_chunk_loop x previous cs';
          do r <- try_chunked cs'' d;
          Ok (r, Some (Tree CChunked [option_map fst last] (Some (option_map snd last))))
      | _ => Err
      end.

    (** [compressor.compress(array, like, ctx)]. *)
    Definition codec_compress (c : codec) (like : option tree) (x : ctx) (a : array) : result compressed :=
      match c with
      | CConst => c_const a
      | CChunked => c_chunked like x a
      | CStruct => c_struct like x a
      | CFoR => c_for like x a
      | CZigZag => c_zigzag like x a
      | CBit allow => c_bit allow like x a
      | CRunEnd => c_runend like x a
      | CDict => c_dict like x a
      | CSparse => c_sparse like x a
      end.

    (** objective_function, lib.rs:450-466, before the division by the size of the sample. That division does not change the
        comparisons of lib.rs:410 (while sizes are below 2^53: a quotient below one is not rounded up to one, and quotients by the
        same size with different numerators do not round to the same number). *)
    Definition objective (z : compressed) : nat := nb (fst z) + (match snd z with Some t => descendants t | None => 0 end) * overhead.
    (** The loop of find_best_compression, lib.rs:383-425; the best objective so far starts at 1.0, that of the sample. *)
    Fixpoint find_go (cs : list codec) (sample : array) (x : ctx) (best_objective : nat) (best : option compressed) : result (option compressed) :=
      match cs with
      | [] => Ok best
      | c :: cs =>
          if can_compress c sample then
            do z <- codec_compress c None (for_compressor c x) sample;
            if objective z <? best_objective then find_go cs sample x (objective z) (Some z) else find_go cs sample x best_objective best
          else find_go cs sample x best_objective best
      end.
    (** find_best_compression, lib.rs:371-448. *)
    Definition find_best (cs : list codec) (sample : array) (x : ctx) : result compressed :=
      do best <- find_go cs sample x (nb sample) None;
      Ok (match best with Some z => z | None => uncompressed sample end).

    (** lib.rs:291-333. *)
    Definition candidates (x : ctx) (a : array) : list codec :=
      let cs := filter (fun c => negb (mem c (disabled x)) && can_compress c a && (cdepth x + cost c <=? max_cost)) (enabled x) in
      if 1 <? length cs then filter (fun c => match own_codec a with Some o => negb (codec_eqb c o) | None => true end) cs else cs.
    (** compress_array, lib.rs:271-368. Simplification: it leaves empty arrays as they are (it is only called with one by the chunked
        compressor, for an empty chunk; the code may give that another encoding of no elements). *)
    Definition step_array (x : ctx) (a : array) : result compressed :=
      if alen a =? 0 then Ok (uncompressed a)
      else
        match a with
        | AConst _ _ _ => Ok (uncompressed a)
        | AChunked _ _ => codec_compress CChunked None x a
        | AStruct _ _ _ _ => codec_compress CStruct None x a
        | _ =>
            if can_compress CConst a then codec_compress CConst None x a
            else
              match candidates x a with
              | [] => Ok (uncompressed a)
              | cs =>
                  if alen a <=? sample_size * sample_count then find_best cs a x
                  else
                    do sample <- take_sample draw sample_size sample_count a;
                    do (_, path) <- find_best cs sample x;
                    match path with
                    | Some t => codec_compress (troot t) (Some t) (for_compressor (troot t) x) a  (* compress_unchecked, mod.rs:125-135 *)
                    | None => Ok (uncompressed a)
                    end
              end
        end.
    (** compress, lib.rs:231-262, with CompressionTree::compress, mod.rs:137-145. *)
    Definition step (x : ctx) (like : option tree) (a : array) : result compressed :=
      if alen a =? 0 then Ok (uncompressed a)
      else
        match like with
        | Some t => if can_compress (troot t) a then codec_compress (troot t) like (for_compressor (troot t) x) a else step_array x a
        | None => step_array x a
        end.
  End Step.

  (** The recursion, to a given depth; arrays nested deeper are left as they are. (A run of the code that ends is one of bounded
      depth; the theorems hold for every depth.) *)
  Fixpoint both (fuel : nat) : recursion * (ctx -> array -> result compressed) :=
    match fuel with
    | 0 => (fun _ _ a => Ok (uncompressed a), fun _ a => Ok (uncompressed a))
    | S fuel => (step (fst (both fuel)) (snd (both fuel)), step_array (fst (both fuel)) (snd (both fuel)))
    end.
  Definition compress (fuel : nat) : recursion := fst (both fuel).
  Definition compress_array (fuel : nat) : ctx -> array -> result compressed := snd (both fuel).
End Chooser.
