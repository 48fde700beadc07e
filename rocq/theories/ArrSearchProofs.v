(** Kept for its name: the search proofs live in ArrReadProofs. *)
From Verif Require Import Base Spec SearchModel SearchProofs Arr ArrRead ArrWf ArrReadProofs.
