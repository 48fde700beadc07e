(** Base definitions shared by the model: Rust outcomes, machine integers, list slices. *)
From Coq Require Export List Arith ZArith Lia Bool.
From Coq Require Export ZifyBool ZifyNat ZifyN.
Export ListNotations.
#[global] Set Warnings "-notation-overridden".

Ltac Zify.zify_post_hook ::= Z.div_mod_to_equations.

(** Outcome of a Rust function returning [VortexResult<A>]:
    [Ok] / [Err] are the two constructors of Rust's [Result]; [Panic] is an unwinding panic
    (failed assertion, [unwrap] on [None], overflow in debug builds, out-of-bounds indexing).
    Error payloads are not modelled. *)
Inductive result (A : Type) : Type :=
| Ok (a : A)
| Err
| Panic.
Arguments Ok {A} a.
Arguments Err {A}.
Arguments Panic {A}.

(** Rust's [?] operator (a panic propagates as well). *)
Definition bind {A B} (r : result A) (f : A -> result B) : result B :=
  match r with Ok a => f a | Err => Err | Panic => Panic end.
Notation "'do' x <- r ; k" := (bind r (fun x => k))
  (at level 200, x pattern, r at level 100, k at level 200, right associativity).

Definition rmap {A B} (f : A -> B) (r : result A) : result B :=
  bind r (fun a => Ok (f a)).

(** [iter.map(f).try_collect()] : stop at the first error. *)
Fixpoint mapM {A B} (f : A -> result B) (l : list A) : result (list B) :=
  match l with
  | [] => Ok []
  | x :: r => do y <- f x; do ys <- mapM f r; Ok (y :: ys)
  end.

Lemma bind_ok {A B} (r : result A) (f : A -> result B) b :
  bind r f = Ok b -> exists a, r = Ok a /\ f a = Ok b.
Proof. destruct r; cbn; intros H; try discriminate; eauto. Qed.

Lemma mapM_ok_map {A B} (f : A -> result B) (g : A -> B) l :
  (forall x, In x l -> f x = Ok (g x)) -> mapM f l = Ok (map g l).
Proof.
  induction l as [|x r IH]; cbn; intros H; [reflexivity|].
  rewrite H by auto; cbn. rewrite IH; [reflexivity|]. intros; apply H; auto.
Qed.

Lemma mapM_length {A B} (f : A -> result B) l ys : mapM f l = Ok ys -> length ys = length l.
Proof.
  revert ys; induction l as [|x r IH]; cbn; intros ys H.
  - injection H as <-; reflexivity.
  - destruct (f x); cbn in H; try discriminate.
    destruct (mapM f r); cbn in H; try discriminate.
    injection H as <-; cbn; f_equal; auto.
Qed.

Lemma mapM_inv {A B} (f : A -> result B) l ys :
  mapM f l = Ok ys -> Forall2 (fun x y => f x = Ok y) l ys.
Proof.
  revert ys; induction l as [|x r IH]; cbn; intros ys H.
  - injection H as <-; constructor.
  - destruct (f x) eqn:E; cbn in H; try discriminate.
    destruct (mapM f r); cbn in H; try discriminate.
    injection H as <-; constructor; auto.
Qed.

Lemma mapM_exists {A B} (f : A -> result B) (l : list A) :
  (forall x, In x l -> exists y, f x = Ok y) -> exists ys, mapM f l = Ok ys.
Proof.
  induction l as [|x r IH]; cbn; intros H; [eauto|].
  destruct (H x) as [y Hy]; [auto|]. rewrite Hy; cbn.
  destruct IH as [ys Hys]; [intros; apply H; auto|]. rewrite Hys; cbn; eauto.
Qed.

(** Exactly-one-outcome helpers. *)
Definition is_ok {A} (r : result A) : bool := match r with Ok _ => true | _ => false end.

(** * Machine integers *)

(** Primitive types, vortex-dtype/src/ptype.rs:16-40 ([PType]). *)
Inductive ptype := U8 | U16 | U32 | U64 | I8 | I16 | I32 | I64 | F16 | F32 | F64.

Definition ptype_eqb (a b : ptype) : bool :=
  match a, b with
  | U8, U8 | U16, U16 | U32, U32 | U64, U64 | I8, I8 | I16, I16 | I32, I32 | I64, I64
  | F16, F16 | F32, F32 | F64, F64 => true
  | _, _ => false
  end.
Lemma ptype_eqb_eq a b : ptype_eqb a b = true <-> a = b.
Proof. destruct a, b; cbn; split; congruence. Qed.

(** [PType::bit_width], ptype.rs. *)
Definition bits (p : ptype) : Z :=
  match p with
  | U8 | I8 => 8 | U16 | I16 | F16 => 16 | U32 | I32 | F32 => 32 | U64 | I64 | F64 => 64
  end%Z.

Definition is_signed (p : ptype) : bool :=
  match p with I8 | I16 | I32 | I64 => true | _ => false end.
Definition is_unsigned (p : ptype) : bool :=
  match p with U8 | U16 | U32 | U64 => true | _ => false end.
Definition is_int (p : ptype) : bool := is_signed p || is_unsigned p.
Definition is_float (p : ptype) : bool := match p with F16 | F32 | F64 => true | _ => false end.

(** [PType::to_unsigned], ptype.rs. *)
Definition to_unsigned (p : ptype) : ptype :=
  match p with I8 => U8 | I16 => U16 | I32 => U32 | I64 => U64 | q => q end.
Definition to_signed (p : ptype) : ptype :=
  match p with U8 => I8 | U16 => I16 | U32 => I32 | U64 => I64 | q => q end.

Open Scope Z_scope.

Definition wrapu (w z : Z) : Z := z mod 2 ^ w.
Definition wraps (w z : Z) : Z := (z + 2 ^ (w - 1)) mod 2 ^ w - 2 ^ (w - 1).

(** Two's complement wrap-around into a primitive type ([as] casts and [wrapping_*]).
    Floats are carried as their bit patterns. *)
Definition wrap (p : ptype) (z : Z) : Z :=
  if is_signed p then wraps (bits p) z else wrapu (bits p) z.

Definition pmin (p : ptype) : Z := if is_signed p then - 2 ^ (bits p - 1) else 0.
Definition pmax (p : ptype) : Z := if is_signed p then 2 ^ (bits p - 1) - 1 else 2 ^ (bits p) - 1.
Definition in_range (p : ptype) (z : Z) : Prop := pmin p <= z <= pmax p.
Definition in_rangeb (p : ptype) (z : Z) : bool := (pmin p <=? z) && (z <=? pmax p).

Lemma in_rangeb_spec p z : in_rangeb p z = true <-> in_range p z.
Proof. unfold in_rangeb, in_range. lia. Qed.

Lemma bits_pos p : 8 <= bits p <= 64.
Proof. destruct p; cbn; lia. Qed.

Lemma pow2_split w : 1 <= w -> 2 ^ w = 2 * 2 ^ (w - 1).
Proof. intros. replace w with (Z.succ (w - 1)) at 1 by lia. rewrite Z.pow_succ_r by lia. lia. Qed.

Lemma wrap_in_range p z : in_range p (wrap p z).
Proof.
  pose proof (bits_pos p) as Hb.
  pose proof (pow2_split (bits p)) as Hs.
  assert (0 < 2 ^ (bits p - 1)) by (apply Z.pow_pos_nonneg; lia).
  unfold in_range, wrap, pmin, pmax, wraps, wrapu.
  destruct (is_signed p).
  - pose proof (Z.mod_pos_bound (z + 2 ^ (bits p - 1)) (2 ^ bits p)). lia.
  - pose proof (Z.mod_pos_bound z (2 ^ bits p)). lia.
Qed.

Lemma wrap_id p z : in_range p z -> wrap p z = z.
Proof.
  pose proof (bits_pos p) as Hb.
  pose proof (pow2_split (bits p)) as Hs.
  assert (0 < 2 ^ (bits p - 1)) by (apply Z.pow_pos_nonneg; lia).
  unfold in_range, wrap, pmin, pmax, wraps, wrapu.
  destruct (is_signed p); intros Hr.
  - rewrite Z.mod_small; lia.
  - rewrite Z.mod_small; lia.
Qed.

(** [wrap] only depends on the residue modulo [2^bits]. *)
Lemma wrap_eq p a b : a mod 2 ^ bits p = b mod 2 ^ bits p -> wrap p a = wrap p b.
Proof.
  unfold wrap, wraps, wrapu. intros H. destruct (is_signed p); [|exact H].
  rewrite (Zplus_mod a), (Zplus_mod b), H. reflexivity.
Qed.

Lemma wrap_mod p a : wrap p a mod 2 ^ bits p = a mod 2 ^ bits p.
Proof.
  pose proof (bits_pos p).
  assert (2 ^ bits p <> 0) by (apply Z.pow_nonzero; lia).
  unfold wrap, wraps, wrapu. destruct (is_signed p).
  - rewrite Zminus_mod, Zmod_mod, <- Zminus_mod. f_equal. lia.
  - apply Zmod_mod.
Qed.

Lemma wrap_wrap p q z : bits p = bits q -> wrap p (wrap q z) = wrap p z.
Proof. intros Hb. apply wrap_eq. rewrite Hb. apply wrap_mod. Qed.

Lemma bits_to_unsigned p : bits (to_unsigned p) = bits p.
Proof. destruct p; reflexivity. Qed.

Close Scope Z_scope.

(** * Lists *)

(** [l[i..j]]. *)
Definition lslice {A} (l : list A) (i j : nat) : list A := firstn (j - i) (skipn i l).

Lemma lslice_length {A} (l : list A) i j : j <= length l -> length (lslice l i j) = j - i.
Proof. intros. unfold lslice. rewrite firstn_length, skipn_length. lia. Qed.

Lemma nth_error_skipn {A} (l : list A) n i : nth_error (skipn n l) i = nth_error l (n + i).
Proof.
  revert l; induction n as [|n IH]; intros l; [reflexivity|].
  destruct l as [|x l]; cbn; [destruct i; reflexivity|]. apply IH.
Qed.

Lemma nth_error_firstn {A} (l : list A) n i :
  nth_error (firstn n l) i = if i <? n then nth_error l i else None.
Proof.
  revert l i; induction n as [|n IH]; intros l i.
  - cbn. destruct i; reflexivity.
  - destruct l as [|x l]; [cbn [firstn]; destruct i; cbn [nth_error]; destruct (_ <? _); reflexivity|cbn [firstn]].
    destruct i as [|i]; cbn [nth_error]; [reflexivity|]. rewrite IH. reflexivity.
Qed.

Lemma nth_error_lslice {A} (l : list A) i j k :
  nth_error (lslice l i j) k = if k <? j - i then nth_error l (i + k) else None.
Proof. unfold lslice. rewrite nth_error_firstn, nth_error_skipn. reflexivity. Qed.

Lemma nth_error_ext {A} (l1 l2 : list A) :
  (forall i, nth_error l1 i = nth_error l2 i) -> l1 = l2.
Proof.
  revert l2; induction l1 as [|x l1 IH]; intros l2 H.
  - destruct l2 as [|y l2]; [reflexivity|]. specialize (H 0). discriminate H.
  - destruct l2 as [|y l2]; [specialize (H 0); discriminate H|].
    f_equal; [specialize (H 0); cbn in H; congruence|]. apply IH. intros i. apply (H (S i)).
Qed.

Lemma nth_skipn {A} (l : list A) n i d : nth i (skipn n l) d = nth (n + i) l d.
Proof.
  revert l; induction n as [|n IH]; intros l; [reflexivity|].
  destruct l as [|x l]; cbn; [destruct i; reflexivity|]. apply IH.
Qed.

Lemma nth_firstn {A} (l : list A) n i d : i < n -> nth i (firstn n l) d = nth i l d.
Proof.
  revert l i; induction n as [|n IH]; intros l i Hi; [lia|].
  destruct l as [|x l]; cbn; [destruct i; reflexivity|].
  destruct i as [|i]; cbn; [reflexivity|]. apply IH. lia.
Qed.

Lemma nth_lslice {A} (l : list A) i j k d : k < j - i -> nth k (lslice l i j) d = nth (i + k) l d.
Proof. intros. unfold lslice. rewrite nth_firstn by lia. apply nth_skipn. Qed.

Lemma lslice_full {A} (l : list A) : lslice l 0 (length l) = l.
Proof. unfold lslice. rewrite Nat.sub_0_r. cbn. apply firstn_all. Qed.

Lemma lslice_nil {A} (l : list A) i j : j <= i -> lslice l i j = [].
Proof. intros. unfold lslice. replace (j - i) with 0 by lia. reflexivity. Qed.

Lemma lslice_lslice {A} (l : list A) a b i j :
  j <= b - a -> lslice (lslice l a b) i j = lslice l (a + i) (a + j).
Proof.
  intros H. apply nth_error_ext. intros k. rewrite !nth_error_lslice.
  replace (a + j - (a + i)) with (j - i) by lia.
  destruct (k <? j - i) eqn:E; [|reflexivity].
  destruct (i + k <? b - a) eqn:E2; [f_equal; lia|]. lia.
Qed.

Lemma lslice_map {A B} (f : A -> B) l i j : lslice (map f l) i j = map f (lslice l i j).
Proof. unfold lslice. rewrite skipn_map, firstn_map. reflexivity. Qed.

Lemma lslice_app {A} (l1 l2 : list A) i j :
  i <= j ->
  lslice (l1 ++ l2) i j =
  lslice l1 (min i (length l1)) (min j (length l1)) ++ lslice l2 (i - length l1) (j - length l1).
Proof.
  intros Hij. unfold lslice. rewrite skipn_app, firstn_app, skipn_length.
  destruct (le_lt_dec (length l1) i) as [H|H].
  - rewrite (skipn_all2 l1) by lia. rewrite firstn_nil.
    rewrite (skipn_all2 l1 (n := Nat.min _ _)) by lia. rewrite firstn_nil. cbn. f_equal. lia.
  - replace (Nat.min i (length l1)) with i by lia.
    replace (i - length l1) with 0 by lia. cbn [skipn].
    f_equal; [|f_equal; lia].
    destruct (le_lt_dec (length l1) j) as [H2|H2].
    + rewrite !firstn_all2; [reflexivity| |]; rewrite skipn_length; lia.
    + f_equal. lia.
Qed.

Lemma nth_ext_len {A} (l1 l2 : list A) d :
  length l1 = length l2 -> (forall i, i < length l1 -> nth i l1 d = nth i l2 d) -> l1 = l2.
Proof. intros. eapply nth_ext; eauto. Qed.

Lemma Forall_skipn {A} (P : A -> Prop) n l : Forall P l -> Forall P (skipn n l).
Proof.
  revert l; induction n as [|n IH]; intros l H; [exact H|].
  destruct H; cbn; auto.
Qed.
Lemma Forall_firstn {A} (P : A -> Prop) n l : Forall P l -> Forall P (firstn n l).
Proof.
  revert l; induction n as [|n IH]; intros l H; cbn; [constructor|].
  destruct H; constructor; auto.
Qed.
Lemma Forall_lslice {A} (P : A -> Prop) l i j : Forall P l -> Forall P (lslice l i j).
Proof. intros. apply Forall_firstn, Forall_skipn, H. Qed.

Lemma Forall_nth_lt {A} (P : A -> Prop) l d i : Forall P l -> i < length l -> P (nth i l d).
Proof. intros H Hi. rewrite Forall_forall in H. apply H. apply nth_In, Hi. Qed.

Lemma map_nth_lt {A B} (f : A -> B) l d d' n :
  n < length l -> nth n (map f l) d' = f (nth n l d).
Proof. intros. rewrite nth_indep with (d' := f d) by (rewrite map_length; lia). apply map_nth. Qed.

(** Non-negative [Z] list entries used as indices. *)
Definition nats (l : list Z) : list nat := map Z.to_nat l.
