(** Validity algebra, vortex-array/src/validity.rs. *)
From Verif Require Import Base Spec Arr ArrSlice.

(** LogicalValidity, validity.rs:317-322 (the Array variant by its bits). *)
Inductive lvalidity := LAllValid (n : nat) | LAllInvalid (n : nat) | LBits (l : list bool).

(** Validity::to_logical, validity.rs:160-181: [compute_min]/[compute_max] of the bit array are absent when it is empty;
    the minimum of a non-nullable boolean array is "all set", the maximum "some set" (bool/stats.rs:120-126). *)
Definition to_logical (v : validity) (n : nat) : lvalidity :=
  match v with
  | VNonNull | VAllValid => LAllValid n
  | VAllInvalid => LAllInvalid n
  | VBits l =>
      match l with
      | [] => LBits l
      | _ => if forallb id l then LAllValid n else if negb (existsb id l) then LAllInvalid n else LBits l
      end
  end.

(** Validity::take, validity.rs:142-149; BoolArray take (bool/compute/take.rs:11-46) indexes and panics out of range. *)
Definition vtake (v : validity) (idx : list nat) : result validity :=
  match v with
  | VBits l =>
      do l' <- mapM (fun i => match nth_error l i with Some b => Ok b | None => Panic end) idx; Ok (VBits l')
  | v => Ok v
  end.

(** filter on the bit array: compute/filter.rs:26-41 returns Err for a mask of another length;
    the result keeps the bits at the set positions of the mask. *)
Fixpoint bfilter {A} (l : list A) (m : list bool) : list A :=
  match l, m with
  | x :: l', b :: m' => if b then x :: bfilter l' m' else bfilter l' m'
  | _, _ => []
  end.
(** Validity::filter, validity.rs:151-158. *)
Definition vfilter (v : validity) (m : list bool) : result validity :=
  match v with
  | VBits l => if length l =? length m then Ok (VBits (bfilter l m)) else Err
  | v => Ok v
  end.

(** From<BooleanBuffer> / From<Vec<bool>> for Validity, validity.rs:247-269. *)
Definition vfrom (l : list bool) : validity :=
  if count id l =? length l then VAllValid
  else if count id l =? 0 then VAllInvalid
  else VBits l.

(** Validity::and, validity.rs:184-212; arrow's bitand asserts equal lengths. *)
Definition vand (a b : validity) : result validity :=
  match a, b with
  | VNonNull, VNonNull => Ok VNonNull
  | VAllInvalid, _ | _, VAllInvalid => Ok VAllInvalid
  | VBits l, VAllValid | VBits l, VNonNull | VNonNull, VBits l | VAllValid, VBits l => Ok (VBits l)
  | VNonNull, VAllValid | VAllValid, VNonNull | VAllValid, VAllValid => Ok VAllValid
  | VBits l, VBits r => if length l =? length r then Ok (vfrom (map (fun '(x, y) => x && y) (combine l r))) else Panic
  end.

(** Validity::into_nullable, validity.rs:215-220. *)
Definition into_nullable (v : validity) : validity := match v with VNonNull => VAllValid | v => v end.

Definition l_all_valid (v : lvalidity) : bool := match v with LAllValid _ => true | _ => false end.
Definition l_all_invalid (v : lvalidity) : bool := match v with LAllInvalid _ => true | _ => false end.
(** LogicalValidity::len, validity.rs:361-367. *)
Definition llen (v : lvalidity) : nat := match v with LAllValid n | LAllInvalid n => n | LBits l => length l end.
Definition lbuf (v : lvalidity) : list bool :=
  match v with LAllValid n => repeat true n | LAllInvalid n => repeat false n | LBits l => l end.

(** FromIterator<LogicalValidity> for Validity, validity.rs:277-308. *)
Definition vcollect (vs : list lvalidity) : validity :=
  if forallb l_all_valid vs then VAllValid
  else if forallb l_all_invalid vs then VAllInvalid
  else VBits (concat (map lbuf vs)).

(** LogicalValidity::into_validity, validity.rs:377-383. *)
Definition into_validity (v : lvalidity) : validity :=
  match v with LAllValid _ => VAllValid | LAllInvalid _ => VAllInvalid | LBits l => VBits l end.

(** LogicalValidity::try_new_from_array, validity.rs:325-341, on a non-nullable boolean array given by its bits:
    the true count is absent for an empty array (bool/stats.rs:14-16), which is an error. *)
Definition l_try_new (l : list bool) : result lvalidity :=
  match l with
  | [] => Err
  | _ => let tc := count id l in
         if tc =? length l then Ok (LAllValid (length l))
         else if tc =? 0 then Ok (LAllInvalid (length l)) else Ok (LBits l)
  end.

(** LogicalValidity::to_null_buffer, validity.rs:343-351. Arrow's NullBuffer counts its unset bits. *)
Definition to_null_buffer (v : lvalidity) : option (list bool) :=
  match v with LAllValid _ => None | LAllInvalid n => Some (repeat false n) | LBits l => Some l end.
(** Number of nulls derived from it (arrow's null_count). *)
Definition null_count_of (v : lvalidity) : nat :=
  match to_null_buffer v with None => 0 | Some l => count negb l end.

(** * Specification: the validity of [n] rows is a list of [n] booleans. *)
Definition vbits (v : validity) (n : nat) : list bool := tab n (vvalid v).
