(** Independent specification of comparisons and boolean operators on logical values. Nothing here mentions encodings. *)
From Verif Require Import Base Spec Arr.

Inductive cop := CEq | CNe | CGt | CGe | CLt | CLe.

(** Does the relation hold, given how the left value compares to the right one ([None] = unordered)? *)
Definition rel (op : cop) (c : option comparison) : bool :=
  match op, c with
  | CEq, Some Eq => true
  | CNe, Some Eq => false | CNe, _ => true
  | CGt, Some Gt => true
  | CGe, Some Gt | CGe, Some Eq => true
  | CLt, Some Lt => true
  | CLe, Some Lt | CLe, Some Eq => true
  | _, _ => false
  end.

(** * Floats, as bit patterns (IEEE 754 binary16/32/64) *)
Definition mantissa (p : ptype) : Z := match p with F16 => 10 | F32 => 23 | _ => 52 end%Z.
Definition sign_bit (p : ptype) : Z := (2 ^ (bits p - 1))%Z.
(** Bit pattern of +infinity. *)
Definition inf_bits (p : ptype) : Z := (sign_bit p - 2 ^ mantissa p)%Z.
Definition is_neg (p : ptype) (z : Z) : bool := (sign_bit p <=? z)%Z.
Definition magnitude (p : ptype) (z : Z) : Z := if is_neg p z then (z - sign_bit p)%Z else z.
Definition is_nan (p : ptype) (z : Z) : bool := (inf_bits p <? magnitude p z)%Z.
(** Position on the number line: both zeros are at 0. *)
Definition float_key (p : ptype) (z : Z) : Z := if is_neg p z then (- magnitude p z)%Z else magnitude p z.
(** The IEEE comparison: NaN is unordered, -0 equals +0. *)
Definition ieee_cmp (p : ptype) (x y : Z) : option comparison :=
  if is_nan p x || is_nan p y then None else Some (float_key p x ?= float_key p y)%Z.
(** Floats other than NaN and negative zero. *)
Definition plain_float (p : ptype) (z : Z) : Prop := is_nan p z = false /\ z <> sign_bit p.

(** * Order of values of a type *)
Fixpoint lex (a b : list Z) : comparison :=
  match a, b with
  | [], [] => Eq | [], _ => Lt | _, [] => Gt
  | x :: a', y :: b' => match Z.compare x y with Eq => lex a' b' | c => c end
  end.
Definition bool_cmp (x y : bool) : comparison := match x, y with false, true => Lt | true, false => Gt | _, _ => Eq end.
Definition value_cmp (d : dtype) (x y : value) : option comparison :=
  match x, y with
  | VInt a, VInt b => match d with DPrim p _ => if is_float p then ieee_cmp p a b else Some (a ?= b)%Z | _ => None end
  | VBool a, VBool b => Some (bool_cmp a b)
  | VBytes a, VBytes b => Some (lex a b)
  | _, _ => None
  end.

(** Comparing two values: null if either is null. *)
Definition spec_cmp (d : dtype) (op : cop) (x y : value) : value :=
  if is_null x || is_null y then VNull else VBool (rel op (value_cmp d x y)).

(** * Boolean operators *)
Definition spec_bool (op : bool -> bool -> bool) (x y : value) : value :=
  match x, y with VBool a, VBool b => VBool (op a b) | _, _ => VNull end.

(** Element by element. *)
Fixpoint map2 {A B C} (g : A -> B -> C) (l : list A) (r : list B) : list C :=
  match l, r with x :: l', y :: r' => g x y :: map2 g l' r' | _, _ => [] end.
