(** Array statistics: vortex-array/src/stats and the per-encoding [compute_statistics]. *)
From Verif Require Import Base Spec Arr ValidityModel.

(** * Orders *)

(** [total_cmp] order of floats on bit patterns, as a key: non-negative patterns in order, negative ones reversed below.
    For integers the value itself. NativePType::compare, vortex-dtype/src/ptype.rs:60-98. *)
Definition zkey (p : ptype) (z : Z) : Z :=
  if is_float p then (if (z <? 2 ^ (bits p - 1))%Z then z else (2 ^ (bits p - 1) - 1 - z)%Z) else z.
(** Exponent width of the float formats. *)
Definition mant_bits (p : ptype) : Z := match p with F16 => 10 | F32 => 23 | F64 => 52 | _ => 0 end%Z.
(** Bit pattern of +infinity. *)
Definition inf_bits (p : ptype) : Z := (2 ^ (bits p - 1) - 2 ^ mant_bits p)%Z.
Definition is_nan (p : ptype) (z : Z) : bool :=
  is_float p && (inf_bits p <? z mod 2 ^ (bits p - 1))%Z.
(** Rust [==] on the native type: floats compare as IEEE numbers (NaN unequal to itself, -0 equal to 0). *)
Definition peq (p : ptype) (a b : Z) : bool :=
  if is_float p then
    negb (is_nan p a) && negb (is_nan p b) &&
    ((a =? b)%Z || ((a mod 2 ^ (bits p - 1) =? 0)%Z && (b mod 2 ^ (bits p - 1) =? 0)%Z))
  else (a =? b)%Z.

(** Lexicographic byte order ([Ord for [u8]]). *)
Fixpoint bcmp (a b : list Z) : comparison :=
  match a, b with
  | [], [] => Eq
  | [], _ => Lt
  | _, [] => Gt
  | x :: a', y :: b' => match Z.compare x y with Eq => bcmp a' b' | c => c end
  end.

(** ScalarValue's derived PartialOrd / PartialEq on values of one data type, vortex-scalar/src/value.rs:17-27 (null is
    the last variant, hence greatest) and pvalue.rs:26-43. Lists (structs) are not needed for statistics. *)
Definition vcmp (d : dtype) (a b : value) : option comparison :=
  match a, b with
  | VNull, VNull => Some Eq
  | VNull, _ => Some Gt
  | _, VNull => Some Lt
  | VBool x, VBool y => Some (match x, y with false, true => Lt | true, false => Gt | _, _ => Eq end)
  | VInt x, VInt y => match d with DPrim p _ => Some (Z.compare (zkey p x) (zkey p y)) | _ => None end
  | VBytes x, VBytes y => Some (bcmp x y)
  | _, _ => None
  end.
Definition bytes_eqb (a b : list Z) : bool := match bcmp a b with Eq => true | _ => false end.
Definition veq (d : dtype) (a b : value) : bool :=
  match a, b with
  | VNull, VNull => true
  | VBool x, VBool y => Bool.eqb x y
  | VInt x, VInt y => match d with DPrim p _ => peq p x y | _ => false end
  | VBytes x, VBytes y => bytes_eqb x y
  | _, _ => false
  end.

(** * Statistics sets *)

(** A scalar statistic: nullability of its dtype and its value (the rest of the dtype is the array's). *)
Definition scalar := (bool * value)%type.

(** StatsSet, stats/statsset.rs:12-15: an optional value per [Stat] (stats/mod.rs:20-31). *)
Record stats := Stats {
  s_bw : option (list nat); s_tz : option (list nat);
  s_const : option bool; s_sorted : option bool; s_strict : option bool;
  s_max : option scalar; s_min : option scalar;
  s_runs : option nat; s_true : option nat; s_nulls : option nat }.
Definition no_stats : stats := Stats None None None None None None None None None None.
Inductive stat := KBw | KTz | KConst | KSorted | KStrict | KMax | KMin | KRuns | KTrue | KNulls.
Definition has {A} (o : option A) : bool := match o with Some _ => true | None => false end.
Definition has_stat (s : stats) (k : stat) : bool :=
  match k with
  | KBw => has (s_bw s) | KTz => has (s_tz s) | KConst => has (s_const s) | KSorted => has (s_sorted s)
  | KStrict => has (s_strict s) | KMax => has (s_max s) | KMin => has (s_min s) | KRuns => has (s_runs s)
  | KTrue => has (s_true s) | KNulls => has (s_nulls s)
  end.
(** Extend, statsset.rs:242-247: new entries win. *)
Definition or_else {A} (new old : option A) : option A := match new with Some x => Some x | None => old end.
Definition extend (s new : stats) : stats :=
  Stats (or_else (s_bw new) (s_bw s)) (or_else (s_tz new) (s_tz s)) (or_else (s_const new) (s_const s))
    (or_else (s_sorted new) (s_sorted s)) (or_else (s_strict new) (s_strict s)) (or_else (s_max new) (s_max s))
    (or_else (s_min new) (s_min s)) (or_else (s_runs new) (s_runs s)) (or_else (s_true new) (s_true s))
    (or_else (s_nulls new) (s_nulls s)).

Definition nbits (p : ptype) : nat := Z.to_nat (bits p).

(** StatsSet::nulls, statsset.rs:32-63 (the caller passes a nullable dtype: Scalar::null asserts it). *)
Definition nulls_stats (n : nat) (d : dtype) : stats :=
  Stats
    (match d with DPrim p _ => Some (repeat 0 (nbits p + 1)) | _ => None end)
    (match d with DPrim p _ => Some (repeat (nbits p) (nbits p + 1)) | _ => None end)
    (Some true) (Some true) (Some (n <? 2))
    (Some (true, VNull)) (Some (true, VNull)) (Some 1)
    (match d with DBool _ => Some 0 | _ => None end) (Some n).

(** merge_ordered, statsset.rs:121-131. *)
Definition lt_scalar (d : dtype) (a b : scalar) : bool :=
  match vcmp d (snd a) (snd b) with Some Lt => true | _ => false end.
Definition le_scalar (d : dtype) (a b : scalar) : bool :=
  match vcmp d (snd a) (snd b) with Some Lt | Some Eq => true | _ => false end.
Definition merge_ordered (cmp : scalar -> scalar -> bool) (own other : option scalar) : option scalar :=
  match own, other with
  | Some e, Some o => if cmp o e then Some o else Some e
  | _, _ => None
  end.
(** Scalar::eq compares dtypes including nullability, scalar/src/lib.rs:109-113; [Option::eq] on both. *)
Definition scalar_eqb (d : dtype) (a b : scalar) : bool := Bool.eqb (fst a) (fst b) && veq d (snd a) (snd b).
Definition opt_scalar_eqb (d : dtype) (a b : option scalar) : bool :=
  match a, b with None, None => true | Some x, Some y => scalar_eqb d x y | _, _ => false end.
(** merge_is_constant, statsset.rs:133-142. *)
Definition merge_const (d : dtype) (own other : stats) : option bool :=
  match s_const own with
  | None => None
  | Some c =>
      match s_const other with
      | Some c' => if c && c' && opt_scalar_eqb d (s_min own) (s_min other) then Some c else Some false
      | None => Some false
      end
  end.
(** merge_sortedness_stat, statsset.rs:152-174. *)
Definition merge_sortedness (cmp : scalar -> scalar -> bool) (own other : option bool) (omax nmin : option scalar)
  : option bool :=
  match own, other with
  | Some s, Some s' =>
      match omax, nmin with
      | Some m, Some n => if s && s' && cmp m n then Some s else Some false
      | _, _ => None
      end
  | _, _ => None
  end.
(** merge_scalar_stat 184-195, merge_run_count 227-239, merge_freq_stat 205-224 (zip_eq panics on different lengths:
    both vectors come from the same primitive type, so the shorter-list behaviour of [combine] is never reached). *)
Definition merge_sum (k : nat) (own other : option nat) : option nat :=
  match own, other with Some a, Some b => Some (a + b + k) | _, _ => None end.
Definition merge_freq (own other : option (list nat)) : option (list nat) :=
  match own, other with Some a, Some b => Some (map (fun '(x, y) => x + y) (combine a b)) | _, _ => None end.

(** StatsSet::merge, statsset.rs:90-107. The statistics are merged in the order of the enum (stats/mod.rs:20-31), so
    IsConstant and the sortedness ones still see the unmerged Max and Min of self. *)
Definition merge (d : dtype) (own other : stats) : stats :=
  Stats (merge_freq (s_bw own) (s_bw other)) (merge_freq (s_tz own) (s_tz other))
    (merge_const d own other)
    (merge_sortedness (le_scalar d) (s_sorted own) (s_sorted other) (s_max own) (s_min other))
    (merge_sortedness (lt_scalar d) (s_strict own) (s_strict other) (s_max own) (s_min other))
    (merge_ordered (fun o e => lt_scalar d e o) (s_max own) (s_max other))
    (merge_ordered (lt_scalar d) (s_min own) (s_min other))
    (merge_sum 1 (s_runs own) (s_runs other))
    (merge_sum 0 (s_true own) (s_true other)) (merge_sum 0 (s_nulls own) (s_nulls other)).

(** * Primitive arrays, array/primitive/stats.rs *)

(** BitWidth, stats.rs:84-129. *)
Definition bit_width (p : ptype) (z : Z) : nat :=
  if is_float p then nbits p
  else if (z <? 0)%Z then nbits p else if (z =? 0)%Z then 0 else Z.to_nat (Z.log2 z + 1).
Fixpoint ctz_pos (q : positive) : nat := match q with xO q' => S (ctz_pos q') | _ => 0 end.
Definition trailing_zeros_z (p : ptype) (z : Z) : nat :=
  if is_float p then 0
  else match z with Z0 => nbits p | Zpos q | Zneg q => ctz_pos q end.

Fixpoint bump (k n : nat) (l : list nat) {struct l} : list nat :=
  match l, k with
  | [], _ => []
  | x :: r, 0 => x + n :: r
  | x :: r, S k' => x :: bump k' n r
  end.

(** StatsAccumulator, stats.rs:131-143. *)
Record pacc := PAcc { p_prev : Z; p_min : Z; p_max : Z; p_sorted : bool; p_strict : bool; p_runs : nat;
  p_nulls : nat; p_nan : nat; p_bw : list nat; p_tz : list nat; p_len : nat }.
(** StatsAccumulator::new, stats.rs:146-163. *)
Definition pacc_new (p : ptype) (x : Z) : pacc :=
  PAcc x x x true true 1 0 (if is_nan p x then 1 else 0)
    (bump (bit_width p x) 1 (repeat 0 (nbits p + 1)))
    (bump (trailing_zeros_z p x) 1 (repeat 0 (nbits p + 1))) 1.
(** n_nulls, stats.rs:165-170, also the None branch of nullable_next, 172-182, with n = 1. *)
Definition pacc_nulls (p : ptype) (n : nat) (c : pacc) : pacc :=
  PAcc (p_prev c) (p_min c) (p_max c) (p_sorted c) (p_strict c) (p_runs c) (p_nulls c + n) (p_nan c)
    (bump 0 n (p_bw c)) (bump (nbits p) n (p_tz c)) (p_len c + n).
(** next, stats.rs:184-207. *)
Definition plt (p : ptype) (a b : Z) : bool := (zkey p a <? zkey p b)%Z.
Definition pacc_next (p : ptype) (c : pacc) (x : Z) : pacc :=
  let eq := (x =? p_prev c)%Z in
  PAcc x
    (if plt p x (p_min c) then x else p_min c)
    (if plt p x (p_min c) then p_max c else if plt p (p_max c) x then x else p_max c)
    (if eq then p_sorted c else if plt p x (p_prev c) then false else p_sorted c)
    (if eq then false else p_strict c)
    (if eq then p_runs c else p_runs c + 1)
    (p_nulls c) (p_nan c + if is_nan p x then 1 else 0)
    (bump (bit_width p x) 1 (p_bw c)) (bump (trailing_zeros_z p x) 1 (p_tz c)) (p_len c + 1).
Definition pacc_nullable_next (p : ptype) (c : pacc) (x : option Z) : pacc :=
  match x with Some z => pacc_next p c z | None => pacc_nulls p 1 c end.
(** finish, stats.rs:209-227; the scalars come from native values, hence a non-nullable dtype. *)
Definition pacc_finish (p : ptype) (c : pacc) : stats :=
  Stats (Some (p_bw c)) (Some (p_tz c))
    (Some ((peq p (p_min c) (p_max c) && (p_nulls c =? 0) && (p_nan c =? 0)) || (p_nulls c =? p_len c)))
    (Some (p_sorted c)) (Some (p_sorted c && p_strict c))
    (Some (false, VInt (p_max c))) (Some (false, VInt (p_min c)))
    (Some (p_runs c)) None (Some (p_nulls c)).

(** [values.iter().zip(validity)] with nulls as None. *)
Definition opts {A} (l : list A) (m : list bool) : list (option A) :=
  map (fun '(x, b) => if b : bool then Some x else None) (combine l m).
Fixpoint first_true (m : list bool) : option nat :=
  match m with [] => None | true :: _ => Some 0 | false :: r => match first_true r with Some k => Some (S k) | None => None end end.

(** compute_statistics for slices and NullableValues, stats.rs:37-82. *)
Definition prim_stats_valid (p : ptype) (l : list Z) : stats :=
  match l with
  | [] => no_stats
  | x :: r => pacc_finish p (fold_left (pacc_next p) r (pacc_new p x))
  end.
Definition prim_stats_nullable (p : ptype) (l : list Z) (m : list bool) : stats :=
  match l with
  | [] => no_stats
  | _ =>
      match first_true m with
      | Some k => pacc_finish p (fold_left (pacc_nullable_next p) (skipn (k + 1) (opts l m))
                                   (pacc_nulls p k (pacc_new p (nth k l 0%Z))))
      | None => nulls_stats (length l) (DPrim p true)
      end
  end.
(** compute_statistics for PrimitiveArray, stats.rs:21-35. *)
Definition prim_stats (p : ptype) (l : list Z) (v : validity) : stats :=
  match to_logical v (length l) with
  | LAllValid _ => prim_stats_valid p l
  | LAllInvalid n => nulls_stats n (DPrim p (vnullable v))
  | LBits m => prim_stats_nullable p l m
  end.

(** * Boolean arrays, array/bool/stats.rs *)
Record bacc := BAcc { b_prev : bool; b_sorted : bool; b_runs : nat; b_nulls : nat; b_true : nat; b_len : nat }.
Definition bacc_new (x : bool) : bacc := BAcc x true 1 0 (if x then 1 else 0) 1.
Definition bacc_nulls (n : nat) (c : bacc) : bacc :=
  BAcc (b_prev c) (b_sorted c) (b_runs c) (b_nulls c + n) (b_true c) (b_len c + n).
(** next, bool/stats.rs:105-118. *)
Definition bacc_next (c : bacc) (x : bool) : bacc :=
  BAcc (if Bool.eqb x (b_prev c) then b_prev c else x)
    (if negb x && b_prev c then false else b_sorted c)
    (if Bool.eqb x (b_prev c) then b_runs c else b_runs c + 1)
    (b_nulls c) (b_true c + if x then 1 else 0) (b_len c + 1).
Definition bacc_nullable_next (c : bacc) (x : option bool) : bacc :=
  match x with Some b => bacc_next c b | None => bacc_nulls 1 c end.
(** finish, bool/stats.rs:120-139. *)
Definition bacc_finish (c : bacc) : stats :=
  Stats None None
    (Some ((b_nulls c =? 0) && ((b_true c =? b_len c) || (b_true c =? 0)) || (b_nulls c =? b_len c)))
    (Some (b_sorted c))
    (Some (b_sorted c && ((b_len c <? 2) || ((b_len c =? 2) && (b_true c =? 1)))))
    (Some (false, VBool (0 <? b_true c))) (Some (false, VBool (b_true c =? b_len c)))
    (Some (b_runs c)) (Some (b_true c)) None.
(** bool/stats.rs:12-67. [l] is the decoded bit list. *)
Definition bool_stats (l : list bool) (v : validity) : stats :=
  match l with
  | [] => no_stats
  | x :: r =>
      match to_logical v (length l) with
      | LAllValid _ => bacc_finish (fold_left bacc_next r (bacc_new x))
      | LAllInvalid n => nulls_stats n (DBool (vnullable v))
      | LBits m =>
          match first_true m with
          | Some k => bacc_finish (fold_left bacc_nullable_next (skipn (k + 1) (opts l m))
                                     (bacc_nulls k (bacc_new (nth k l false))))
          | None => nulls_stats (length l) (DBool true)
          end
      end
  end.

(** * Byte-string arrays, array/varbin/stats.rs (also used by varbinview/stats.rs:9-16) *)
Record sacc := SAcc { a_min : list Z; a_max : list Z; a_sorted : bool; a_strict : bool; a_last : list Z;
  a_nulls : nat; a_runs : nat; a_len : nat }.
Definition sacc_new (x : list Z) : sacc := SAcc x x true true x 0 1 1.
Definition sacc_nulls (n : nat) (c : sacc) : sacc :=
  SAcc (a_min c) (a_max c) (a_sorted c) (a_strict c) (a_last c) (a_nulls c + n) (a_runs c) (a_len c + n).
Definition blt (a b : list Z) : bool := match bcmp a b with Lt => true | _ => false end.
(** next, varbin/stats.rs:84-106. *)
Definition sacc_next (c : sacc) (x : list Z) : sacc :=
  let mn := if blt x (a_min c) then x else a_min c in
  let mx := if blt x (a_min c) then a_max c else if blt (a_max c) x then x else a_max c in
  match bcmp x (a_last c) with
  | Lt => SAcc mn mx false false x (a_nulls c) (a_runs c + 1) (a_len c + 1)
  | Eq => SAcc mn mx (a_sorted c) false (a_last c) (a_nulls c) (a_runs c) (a_len c + 1)
  | Gt => SAcc mn mx (a_sorted c) (a_strict c) x (a_nulls c) (a_runs c + 1) (a_len c + 1)
  end.
Definition sacc_nullable_next (c : sacc) (x : option (list Z)) : sacc :=
  match x with Some b => sacc_next c b | None => sacc_nulls 1 c end.
(** finish, varbin/stats.rs:108-121; the scalars carry the array's dtype. *)
Definition sacc_finish (n : bool) (c : sacc) : stats :=
  Stats None None
    (Some ((bytes_eqb (a_min c) (a_max c) && (a_nulls c =? 0)) || (a_nulls c =? a_len c)))
    (Some (a_sorted c)) (Some (a_strict c))
    (Some (n, VBytes (a_max c))) (Some (n, VBytes (a_min c))) (Some (a_runs c)) None (Some (a_nulls c)).
(** compute_stats, varbin/stats.rs:22-42, over the array's iterator of optional byte strings. *)
Fixpoint str_stats_go (nul : nat) (d : dtype) (l : list (option (list Z))) : stats :=
  match l with
  | [] => nulls_stats nul d
  | None :: r => str_stats_go (nul + 1) d r
  | Some x :: r => sacc_finish (nullable d) (fold_left sacc_nullable_next r (sacc_nulls nul (sacc_new x)))
  end.
Definition str_stats (d : dtype) (l : list (option (list Z))) : stats :=
  match l with [] => no_stats | _ => str_stats_go 0 d l end.

(** * Whole arrays *)

(** Statistics stored by ConstantArray::new, constant/mod.rs:44-50. *)
Definition const_base (d : dtype) (x : value) : stats :=
  Stats None None (Some true) (Some true) None (Some (nullable d, x)) (Some (nullable d, x)) (Some 1) None None.
(** compute_statistics for ConstantArray, constant/stats.rs:9-21. *)
Definition const_computed (x : value) (n : nat) : stats :=
  Stats None None (Some true) None None None None None
    (match x with VBool b => Some (if b then n else 0) | _ => None end) None.

(** Iterator over the optional strings of a string array: its logical elements (accessors in varbin/accessor.rs and
    varbinview/accessor.rs; element reads are the subject of C01). *)
Definition str_opts (l : list value) : list (option (list Z)) :=
  map (fun x => match x with VBytes s => Some s | _ => None end) l.
Definition bool_of (x : value) : bool := match x with VBool b => b | _ => false end.

(** [a.statistics().compute(k); a.statistics().to_set()] for a freshly constructed array: the stored set, extended by
    compute_statistics(k) unless [k] is already there (data.rs:174-191).
    Encodings without an entry use the empty default (stats/mod.rs:67-72).
    Chunked: chunked/stats.rs:6-22. Dict: encodings/dict/src/stats.rs:9-47. ByteBool: bytebool/src/stats.rs:7-16. *)
Fixpoint stats_after (k : stat) (a : array) {struct a} : stats :=
  match a with
  | ANull n => nulls_stats n DNull
  | ABool off buf len v => bool_stats (lslice buf off (off + len)) v
  | APrim p l v => prim_stats p l v
  | AView _ _ _ _ | AVarBin _ _ _ _ => str_stats (adtype a) (str_opts (logical a))
  | AConst d x n => let b := const_base d x in if has_stat b k then b else extend b (const_computed x n)
  | AChunked d cs =>
      match map (stats_after k) cs with
      | [] => no_stats
      | s :: r => fold_left (merge d) r s
      end
  | ADict codes vals =>
      let srt := match s_sorted (stats_after KSorted vals) with Some b => b | None => false end in
      Stats None None (s_const (stats_after KConst codes))
        (if srt then s_sorted (stats_after KSorted codes) else None)
        (if srt then s_strict (stats_after KStrict codes) else None)
        (s_max (stats_after KMax vals)) (s_min (stats_after KMin vals))
        (s_runs (stats_after KRuns codes)) None (s_nulls (stats_after KNulls codes))
  | AByteBool l v =>
      match l with [] => no_stats | _ => bool_stats (map (fun z => negb (z =? 0)%Z) l) v end
  | AStruct _ _ _ _ | AExt _ _ | ASparse _ _ _ _ _ | ARunEnd _ _ _ _ _ | AFoR _ _ _ _ | AZigZag _
  | ABitPacked _ _ _ _ _ _ _ => no_stats
  end.

(** stats::trailing_zeros, stats/mod.rs:178-189 ([find_or_first]: the first positive entry, else the first). *)
Fixpoint first_pos (l : list nat) : option nat :=
  match l with [] => None | x :: r => if 0 <? x then Some 0 else match first_pos r with Some k => Some (S k) | None => None end end.
Definition trailing_zeros (a : array) : nat :=
  match s_tz (stats_after KTz a) with
  | None => 0
  | Some l => match first_pos l with Some k => k | None => 0 end
  end.

(** * Specification: what it means for statistics to be true of a list of values *)
Definition nn (l : list value) : list value := filter (fun x => negb (is_null x)) l.
(** [a] is at most / below [b] in the order of the data type. *)
Definition vle (d : dtype) (a b : value) : Prop := vcmp d a b = Some Lt \/ vcmp d a b = Some Eq.
Definition vlt (d : dtype) (a b : value) : Prop := vcmp d a b = Some Lt.
Fixpoint sorted_by (r : value -> value -> Prop) (l : list value) : Prop :=
  match l with [] => True | x :: t => (forall y, In y t -> r x y) /\ sorted_by r t end.
(** Number of maximal runs of equal consecutive elements. *)
Fixpoint run_count (l : list value) : nat :=
  match l with
  | [] => 0
  | [_] => 1
  | x :: ((y :: _) as t) => (if (match x, y with
                                | VBool a, VBool b => Bool.eqb a b
                                | VInt a, VInt b => Z.eqb a b
                                | VBytes a, VBytes b => bytes_eqb a b
                                | VNull, VNull => true
                                | _, _ => false end) then 0 else 1) + run_count t
  end.

Definition is_least (d : dtype) (l : list value) (x : value) : Prop :=
  match nn l with [] => x = VNull | _ => In x (nn l) /\ forall y, In y (nn l) -> vle d x y end.
Definition is_greatest (d : dtype) (l : list value) (x : value) : Prop :=
  match nn l with [] => x = VNull | _ => In x (nn l) /\ forall y, In y (nn l) -> vle d y x end.
Definition oall {A} (P : A -> Prop) (o : option A) : Prop := match o with Some x => P x | None => True end.
Definition ptype_of (d : dtype) : ptype := match d with DPrim p _ => p | _ => U8 end.

(** Every statistic present in [s] is true of [l]:
    min/max are attained bounds of the non-null values (null iff there are none); constant means all values (nulls
    included) are equal; sortedness speaks of the non-null values in order; the run count bounds the number of runs of
    the non-null values from above (merging over-counts); null and true counts are exact; the bit-width histogram is
    exact for every non-zero width; the trailing-zero histogram never undercounts non-null values. *)
Record sound (d : dtype) (l : list value) (s : stats) : Prop := Sound {
  so_min : oall (fun m => is_least d l (snd m)) (s_min s);
  so_max : oall (fun m => is_greatest d l (snd m)) (s_max s);
  so_const : oall (fun b => b = true -> exists x, Forall (eq x) l) (s_const s);
  so_sorted : oall (fun b => b = true -> sorted_by (vle d) (nn l)) (s_sorted s);
  so_unsorted : oall (fun b => b = false -> ~ sorted_by (vle d) (nn l)) (s_sorted s);
  so_strict : oall (fun b => b = true -> sorted_by (vlt d) (nn l)) (s_strict s);
  so_runs : oall (fun n => run_count (nn l) <= n) (s_runs s);
  so_true : oall (fun n => n = count (fun x => match x with VBool true => true | _ => false end) l) (s_true s);
  so_nulls : oall (fun n => n = count is_null l) (s_nulls s);
  so_bw : oall (fun h => length h = nbits (ptype_of d) + 1 /\
             forall k, 1 <= k <= nbits (ptype_of d) ->
             nth k h 0 = count (fun x => negb (is_null x) && (bit_width (ptype_of d) (vint x) =? k)) l) (s_bw s);
  so_tz : oall (fun h => length h = nbits (ptype_of d) + 1 /\
             forall k, k < nbits (ptype_of d) ->
             count (fun x => negb (is_null x) && (trailing_zeros_z (ptype_of d) (vint x) =? k)) l <= nth k h 0) (s_tz s) }.
