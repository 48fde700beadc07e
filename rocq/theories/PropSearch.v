(** Property C07: search_sorted returns the insertion point.
    This file contains only property theorems, each closed by [exact], with assumptions printed. *)
From Verif Require Import Base Spec SearchModel SearchProofs.

(** C07 (integer sequences). On a sorted sequence of any length, searching for [v] on the left gives the number of
    elements [< v], on the right the number of elements [<= v] when [v] occurs; [Found] exactly when [v] occurs. *)
Theorem search_sorted_insertion_point :
  forall (l : list Z) (v : Z) (s : side), sortedZ l ->
  exists r, search_sorted_list l v s = Ok r /\
    (to_index r = match s with
                  | Left => count (fun x => (x <? v)%Z) l
                  | Right => count (fun x => (x <=? v)%Z) l
                  end) /\
    ((exists i, r = Found i) <-> In v l).
Proof. exact search_sorted_list_point. Qed.
Print Assumptions search_sorted_insertion_point.

(** C07 (any comparator, e.g. nullable data): whatever the element type, if the comparisons of the elements against
    the searched value come first [Lt], then [Eq], then [Gt], the binary search returns the block boundary. *)
Theorem search_sorted_any_comparator :
  forall (cs : list comparison) (index_cmp : nat -> option comparison) (s : side),
  sorted_cmps cs ->
  (forall i, i < length cs -> index_cmp i = Some (nth i cs Lt)) ->
  search_sorted_gen index_cmp s (length cs) = Ok (spec_search cs s).
Proof. exact search_sorted_gen_correct. Qed.
Print Assumptions search_sorted_any_comparator.

(** C07 (nullable integers, nulls ordered last, as scalar comparison in search_sorted.rs does). *)
Theorem search_sorted_nullable :
  forall (l : list (option Z)) (v : Z) (s : side), sorted_nl l ->
  search_sorted_gen (fun i => Some (cmp_null_last (nth i l None) v)) s (length l) =
  Ok (spec_search (map (fun x => cmp_null_last x v) l) s).
Proof. exact search_sorted_nl_correct. Qed.
Print Assumptions search_sorted_nullable.

(** Inserting at the returned position keeps the sequence sorted. *)
Theorem search_sorted_insert_keeps_sorted :
  forall (l : list Z) (v : Z) (s : side) r, sortedZ l -> search_sorted_list l v s = Ok r ->
  sortedZ (firstn (to_index r) l ++ v :: skipn (to_index r) l).
Proof. exact search_sorted_insert_sorted. Qed.
Print Assumptions search_sorted_insert_keeps_sorted.

Example search_sorted_nonvacuous :
  sortedZ [1; 3; 3; 3; 7]%Z /\
  search_sorted_list [1; 3; 3; 3; 7]%Z 3 Left = Ok (Found 1) /\
  search_sorted_list [1; 3; 3; 3; 7]%Z 3 Right = Ok (Found 4) /\
  search_sorted_list [1; 3; 3; 3; 7]%Z 5 Right = Ok (NotFound 4) /\
  sorted_nl [Some 1; Some 4; None; None]%Z.
Proof.
  repeat split; try reflexivity; try (cbn; intros; lia).
  exists [1; 4]%Z, 2. split; [reflexivity|]. cbn. intuition lia.
Qed.
