(** Model of vortex-array/src/compute/search_sorted.rs (the generic binary search). *)
From Verif Require Import Base Spec.

(** The [while size > 1] loop of search_sorted_side_idx, search_sorted.rs:338-361.
    [fuel] bounds the number of iterations; [None] = fuel exhausted (proved impossible). *)
Fixpoint bs_loop (find : nat -> comparison) (fuel size base : nat) : option nat :=
  match fuel with
  | 0 => None
  | S fuel' =>
      if size <=? 1 then Some base
      else
        let half := size / 2 in
        let mid := base + half in
        let base' := match find mid with Gt => base | _ => mid end in
        bs_loop find fuel' (size - half) base'
  end.

(** search_sorted_side_idx, search_sorted.rs:323-376. [to - from] underflow is a panic. *)
Definition search_sorted_side_idx (find : nat -> comparison) (from to : nat) : result search_result :=
  if to <? from then Panic
  else
    let size := to - from in
    if size =? 0 then Ok (NotFound 0)
    else match bs_loop find (S size) size from with
         | None => Panic
         | Some base =>
             match find base with
             | Eq => Ok (Found base)
             | Lt => Ok (NotFound (base + 1))
             | Gt => Ok (NotFound base)
             end
         end.

(** SearchSorted::search_sorted_by, search_sorted.rs:298-319. *)
Definition search_sorted_by (find side_find : nat -> comparison) (s : side) (len : nat)
  : result search_result :=
  do r <- search_sorted_side_idx find 0 len;
  match r with
  | Found found =>
      do r2 <- match s with
               | Left => search_sorted_side_idx side_find 0 found
               | Right => search_sorted_side_idx side_find found len
               end;
      match r2 with
      | NotFound i => Ok (Found i)
      | Found _ => Panic
      end
  | NotFound i => Ok (NotFound i)
  end.

(** SearchSorted::search_sorted, search_sorted.rs:253-281, over an [index_cmp] that may be undefined
    ([None], e.g. NaN or a failing scalar_at): [unwrap_or(Less)], index_lt, index_le (lines 227-245). *)
Definition search_sorted_gen (index_cmp : nat -> option comparison) (s : side) (len : nat)
  : result search_result :=
  let find i := match index_cmp i with Some c => c | None => Lt end in
  let side_find i :=
    match s, index_cmp i with
    | Left, Some Lt => Lt
    | Left, _ => Gt
    | Right, Some (Lt | Eq) => Lt
    | Right, _ => Gt
    end in
  search_sorted_by find side_find s len.

(** SearchSorted on a slice [T], search_sorted.rs:385-390, for totally ordered integers. *)
Definition search_sorted_list (l : list Z) (v : Z) (s : side) : result search_result :=
  search_sorted_gen (fun i => Some (Z.compare (nth i l 0%Z) v)) s (length l).

(** SearchResult::to_offsets_index, search_sorted.rs:60-71. *)
Definition to_offsets_index (r : search_result) (len : nat) : nat :=
  match r with
  | Found i => if i =? len then i - 1 else i
  | NotFound i => i - 1
  end.

(** SearchResult::to_ends_index, search_sorted.rs:78-85 (panics when idx = len = 0). *)
Definition to_ends_index (r : search_result) (len : nat) : result nat :=
  let idx := to_index r in
  if idx =? len then (if idx =? 0 then Panic else Ok (idx - 1)) else Ok idx.
