(** Independent specification: what arrays mean and what the compute functions should return.

    An array denotes the list of its logical values. Nothing here mentions encodings. *)
From Verif Require Import Base.

(** A logical value. [VInt] is the value of an integer of any width, or the bit pattern of a float
    (which is enough for functions that only move floats around). *)
Inductive value :=
| VNull
| VBool (b : bool)
| VInt (z : Z)
| VBytes (s : list Z)
| VStruct (vs : list value).

Definition is_null (v : value) : bool := match v with VNull => true | _ => false end.

(** slice: elements i, i+1, ..., j-1. *)
Definition spec_slice {A} (l : list A) (i j : nat) : list A := firstn (j - i) (skipn i l).

(** take: for in-range indices the element at each index, [None] if an index is out of range. *)
Fixpoint spec_take {A} (l : list A) (idx : list nat) : option (list A) :=
  match idx with
  | [] => Some []
  | i :: r =>
      match nth_error l i, spec_take l r with
      | Some x, Some xs => Some (x :: xs)
      | _, _ => None
      end
  end.

(** filter: keep the elements whose mask bit is true. *)
Fixpoint spec_filter {A} (l : list A) (mask : list bool) : list A :=
  match l, mask with
  | x :: l', b :: m' => if b then x :: spec_filter l' m' else spec_filter l' m'
  | _, _ => []
  end.

(** search_sorted: insertion points, by counting. *)
Inductive side := Left | Right.
Inductive search_result := Found (i : nat) | NotFound (i : nat).
Definition to_index (r : search_result) : nat := match r with Found i => i | NotFound i => i end.

Definition count {A} (f : A -> bool) (l : list A) : nat := length (filter f l).

(** Result of searching for an element given how each element compares to it:
    [Lt] = element smaller than the searched value. *)
Definition spec_search (cs : list comparison) (s : side) : search_result :=
  let lt := count (fun c => match c with Lt => true | _ => false end) cs in
  let eq := count (fun c => match c with Eq => true | _ => false end) cs in
  if Nat.eqb eq 0 then NotFound lt
  else Found (match s with Left => lt | Right => lt + eq end).

(** A list of comparisons against a fixed value coming from a sorted sequence:
    first all [Lt], then all [Eq], then all [Gt]. *)
Definition sorted_cmps (cs : list comparison) : Prop :=
  exists a b c, cs = repeat Lt a ++ repeat Eq b ++ repeat Gt c.

(** Order used on nullable data: nulls greatest (search_sorted.rs:99). *)
Definition cmp_null_last (x : option Z) (v : Z) : comparison :=
  match x with None => Gt | Some z => Z.compare z v end.

Fixpoint sortedZ (l : list Z) : Prop :=
  match l with
  | [] => True
  | x :: r => (forall y, In y r -> (x <= y)%Z) /\ sortedZ r
  end.
Fixpoint ssortedZ (l : list Z) : Prop :=
  match l with
  | [] => True
  | x :: r => (forall y, In y r -> (x < y)%Z) /\ ssortedZ r
  end.

(** Nullable sorted sequence: sorted values followed by nulls. *)
Definition sorted_nl (l : list (option Z)) : Prop :=
  exists vs n, l = map Some vs ++ repeat None n /\ sortedZ vs.
