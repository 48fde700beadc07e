(** Filter expressions on arrays, row filters and pruning predicates. *)
From Verif Require Import Base Spec CmpSpec ExprSpec Arr ArrRead ArrSlice ArrWf ValidityModel ArrOps Compare Layout.

(** Operator::inverse / swap of expressions, vortex-expr/src/operators.rs:35-60. *)
Definition bop_inverse (o : bop) : option bop := match o with BCmp c => Some (BCmp (cop_inverse c)) | _ => None end.
Definition bop_swap (o : bop) : bop := match o with BCmp c => BCmp (cop_swap c) | o => o end.

(** Position of a column: StructArrayTrait::field_by_name, vortex-array/src/variants.rs:243-250 (first of that name), and
    StructArray::field, struct_/mod.rs:150-156. *)
Definition col_pos (ns : list nat) (c : field) : option nat := match c with FName n => position ns n | FIndex i => Some i end.
Definition col_of (ns : list nat) (fls : list array) (c : field) : option array :=
  match col_pos ns c with Some i => nth_error fls i | None => None end.
(** StructArray::project, struct_/mod.rs:111-138: an index past the end panics. *)
Definition struct_proj (ns : list nat) (fls : list array) (n : nat) (v : validity) (cs : list field) : result array :=
  do l <- mapM (fun c => match col_pos ns c with
                         | None => Err
                         | Some i => match nth_error ns i, nth_error fls i with Some m, Some a => Ok (m, a) | _, _ => Panic end
                         end) cs;
  try_struct (map fst l) (map snd l) n v.
(** VortexExpr::evaluate: column.rs:44-52 (only StructArray batches), literal.rs:26-28, binary.rs:42-56, identity.rs:16-18,
    select.rs:31-60 (modelled for StructArray batches). *)
Fixpoint evaluate (e : expr field) (batch : array) : result array :=
  match e with
  | ECol c =>
      match batch with
      | AStruct ns fls _ _ => match col_of ns fls c with Some a => Ok a | None => Err end
      | _ => Err
      end
  | ELit d x => Ok (AConst d x (alen batch))
  | EBin op l r =>
      do a <- evaluate l batch;
      do b <- evaluate r batch;
      match op with BCmp c => compare a b c | BAnd => and_ a b | BOr => or_ a b end
  | EIdentity => Ok batch
  | ESelect inc cs =>
      match batch with
      | AStruct ns fls n v =>
          if inc then struct_proj ns fls n v cs
          else do ex <- mapM (fun c => match c with FName m => Ok m | FIndex i => match nth_error ns i with Some m => Ok m | None => Err end end) cs;
               struct_proj ns fls n v (map FName (filter (fun m => negb (existsb (Nat.eqb m) ex)) ns))
      | _ => Err
      end
  end.

(** split_conjunction, vortex-expr/src/lib.rs:44-60. *)
Fixpoint split_conjunction {F} (e : expr F) : list (expr F) :=
  match e with EBin BAnd l r => split_conjunction l ++ split_conjunction r | _ => [e] end.

(** The TrueCount statistic: bool/stats.rs:12-28 (an empty array has none), constant/stats.rs:9-21, bytebool/stats.rs:7-17,
    chunked/stats.rs:6-22 with merge_scalar_stat (statsset.rs:184-195: missing on either side, missing in the merge); no other
    encoding of the model has it. *)
Definition is_true (x : value) : bool := match x with VBool b => b | _ => false end.
Fixpoint true_count (a : array) : option nat :=
  match a with
  | ABool _ _ n _ => if n =? 0 then None else Some (count is_true (logical a))
  | AByteBool l _ => if length l =? 0 then None else Some (count is_true (logical a))
  | AConst _ (VBool b) n => Some (if b then n else 0)
  | AChunked _ cs =>
      match map true_count cs with
      | [] => None
      | x :: r => fold_left (fun acc y => match acc, y with Some u, Some w => Some (u + w) | _, _ => None end) r x
      end
  | _ => None
  end.
(** null_as_false, vortex-serde/src/layouts/read/mod.rs:74-86. *)
Definition null_as_false (bits : list bool) (v : validity) : array :=
  let n := length bits in
  match v with
  | VNonNull | VAllValid => ABool 0 bits n VNonNull
  | VAllInvalid => ABool 0 (repeat false n) n VNonNull
  | VBits w => ABool 0 (map2 andb bits w) n VNonNull
  end.
(** RowFilter::new and evaluate, vortex-serde/src/layouts/read/filtering.rs:20-43. *)
Fixpoint filter_loop (es : list (expr field)) (mask target : array) : result array :=
  match es with
  | [] => do (bits, v) <- into_bool (canon mask); Ok (null_as_false bits v)
  | e :: r =>
      if match true_count mask with Some n => n | None => 0 end =? 0 then Ok (AConst (DBool false) (VBool false) (alen target))
      else do new <- evaluate e target; do m <- and_ new mask; filter_loop r m target
  end.
Definition row_filter (e : expr field) (target : array) : result array :=
  match split_conjunction e with
  | [] => Panic
  | e0 :: r => do mask <- evaluate e0 target; filter_loop r mask target
  end.

(** * Pruning predicates, vortex-serde/src/layouts/pruning.rs *)

(** references, lib.rs:35-40 with each expression's collect_references. *)
Fixpoint refs {F} (e : expr F) : list F :=
  match e with ECol c => [c] | EBin _ l r => refs l ++ refs r | ESelect _ cs => cs | _ => [] end.
(** replace_column_with_stat, pruning.rs:182-212, and its use in rewrite_other_exp (112-115): every column becomes the column that
    holds its statistic. The column name "{column}_{stat}" (stat_column_name, 214-219) is modelled by the pair
    (so clashes between such names are not modelled; columns inside a Select, which the code leaves alone, are mapped too). *)
Fixpoint with_stat {F} (s : stat) (e : expr F) : expr (F * stat) :=
  match e with
  | ECol c => ECol (c, s)
  | ELit d x => ELit d x
  | EBin op l r => EBin op (with_stat s l) (with_stat s r)
  | EIdentity => EIdentity
  | ESelect b cs => ESelect b (map (fun c => (c, s)) cs)
  end.
Definition fallback {F} : expr F := ELit (DBool false) (VBool true).
(** PruningPredicateRewriter::try_new and rewrite, pruning.rs:81-180. *)
Definition rewrite_cmp {F} (eqb : F -> F -> bool) (c : F) (op : bop) (other : expr F) : expr (F * stat) :=
  if existsb (eqb c) (refs other) then fallback
  else
    let mn := ECol (c, SMin) in let mx := ECol (c, SMax) in
    let omin := with_stat SMin other in let omax := with_stat SMax other in
    match op with
    | BCmp CEq => EBin BOr (EBin (BCmp CGt) mn omax) (EBin (BCmp CGt) omin mx)
    | BCmp CNe => EBin BOr (EBin BAnd (EBin (BCmp CEq) mn omin) (EBin (BCmp CEq) omin mx))
                           (EBin BAnd (EBin (BCmp CEq) mn omax) (EBin (BCmp CEq) omax mx))
    | BCmp CGt | BCmp CGe => EBin (BCmp CLe) mx omin
    | BCmp CLt | BCmp CLe => EBin (BCmp CGe) mn omax
    | _ => fallback
    end.
(** convert_to_pruning_expression, pruning.rs:29-70. *)
Fixpoint prune {F} (eqb : F -> F -> bool) (e : expr F) : expr (F * stat) :=
  match e with
  | EBin BAnd l r => EBin BAnd (prune eqb l) (prune eqb r)
  | EBin BOr l r => EBin BOr (prune eqb l) (prune eqb r)
  | EBin op (ECol c) r => rewrite_cmp eqb c op r
  | EBin op l (ECol c) => rewrite_cmp eqb c (bop_swap op) l
  | _ => fallback
  end.
