(** Independent specification of filter expressions: what an expression means for one row. *)
From Verif Require Import Base Spec CmpSpec Arr.

Inductive bop := BCmp (c : cop) | BAnd | BOr.
(** Expressions over columns named by [F]. *)
Inductive expr (F : Type) :=
| ECol (c : F)
| ELit (d : dtype) (x : value)
| EBin (op : bop) (l r : expr F)
| EIdentity
| ESelect (include : bool) (cs : list F).
Arguments ECol {F}. Arguments ELit {F}. Arguments EBin {F}. Arguments EIdentity {F}. Arguments ESelect {F}.

(** The type of an expression, given the types of the columns. Comparisons and connectives give nullable booleans. *)
Definition etype {F} (ty : F -> dtype) (e : expr F) : dtype :=
  match e with ECol c => ty c | ELit d _ => d | EBin _ _ _ => DBool true | _ => DNull end.
(** The value of an expression on a row. (Struct-valued expressions have no row value here.) *)
Fixpoint eval_row {F} (ty : F -> dtype) (row : F -> value) (e : expr F) : value :=
  match e with
  | ECol c => row c
  | ELit _ x => x
  | EBin (BCmp op) l r => spec_cmp (etype ty l) op (eval_row ty row l) (eval_row ty row r)
  | EBin BAnd l r => spec_bool andb (eval_row ty row l) (eval_row ty row r)
  | EBin BOr l r => spec_bool orb (eval_row ty row l) (eval_row ty row r)
  | _ => VNull
  end.
(** A row passes a filter when the filter is true (not null). *)
Definition passes {F} (ty : F -> dtype) (e : expr F) (row : F -> value) : bool :=
  match eval_row ty row e with VBool true => true | _ => false end.

(** [lo] and [hi] bound the non-null values of a column in a block of rows; a null bound says nothing. *)
Definition vle (d : dtype) (x y : value) : Prop := value_cmp d x y = Some Lt \/ value_cmp d x y = Some Eq.
Inductive stat := SMin | SMax.
Definition stats_ok {F} (ty : F -> dtype) (st : F * stat -> value) (rows : list (F -> value)) : Prop :=
  forall row c, In row rows -> row c <> VNull ->
    (st (c, SMin) <> VNull -> vle (ty c) (st (c, SMin)) (row c)) /\ (st (c, SMax) <> VNull -> vle (ty c) (row c) (st (c, SMax))).
