(** What Arrow arrays and types mean, and when they are well-formed (C48). *)
From Verif Require Import Base Spec Arr ArrWf DateTime Temporal PropTemporal Arrow.

(** A row is null if its bit in the null buffer is not set. *)
Definition ok_at (nb : option (list bool)) (i : nat) : bool := match nb with None => true | Some b => nth i b false end.

(** The values of an Arrow array (Arrow columnar format). *)
Fixpoint rlogical (r : aarray) : list value :=
  match r with
  | RNull n => repeat VNull n
  | RBool off bits n nb => tab n (fun i => if ok_at nb i then VBool (nth (off + i) bits false) else VNull)
  | RPrim _ l nb | RTemp _ l nb => tab (length l) (fun i => if ok_at nb i then VInt (nth i l 0%Z) else VNull)
  | RBytes _ _ offs bytes nb =>
      tab (length offs - 1) (fun i => if ok_at nb i then VBytes (lslice bytes (Z.to_nat (nth i offs 0%Z)) (Z.to_nat (nth (i + 1) offs 0%Z))) else VNull)
  | RView _ vs bufs nb => tab (length vs) (fun i => if ok_at nb i then VBytes (view_bytes bufs (nth i vs (VInl []))) else VNull)
  | RStruct _ _ cols n nb =>
      let ls := map rlogical cols in
      tab n (fun i => if ok_at nb i then VStruct (map (fun l => nth i l VNull) ls) else VNull)
  end.

(** Arrow's physical types of dates, times, timestamps and durations: 32 bits for days and for times in seconds or milliseconds. *)
Definition temporal_width (t : atype) : ptype := match t with TDate32 => I32 | TTime32 _ => I32 | _ => I64 end.
(** Well-formed Arrow arrays. *)
Definition nulls_fit (nb : option (list bool)) (n : nat) : Prop := match nb with None => True | Some b => length b = n end.
Definition strings_valid (utf8 : bool) (l : list value) : Prop := utf8 = true -> forall s, In (VBytes s) l -> utf8_valid s = true.
Fixpoint arrow_wf (r : aarray) : Prop :=
  match r with
  | RNull _ => True
  | RBool off bits n nb => off + n <= length bits /\ nulls_fit nb n
  | RPrim p l nb => Forall (in_range p) l /\ nulls_fit nb (length l)
  | RTemp t l nb => temporal_type t /\ Forall (in_range (temporal_width t)) l /\ nulls_fit nb (length l)
  | RBytes u large offs bytes nb =>
      1 <= length offs /\ sortedZ offs /\ Forall (fun z => (0 <= z <= Z.of_nat (length bytes))%Z) offs /\
      Forall (in_range (if large then I64 else I32)) offs /\ nulls_fit nb (length offs - 1) /\ strings_valid u (rlogical r)
  | RView u vs bufs nb => Forall (view_ok bufs) vs /\ nulls_fit nb (length vs) /\ strings_valid u (rlogical r)
  | RStruct ns nls cols n nb =>
      length ns = length cols /\ length nls = length cols /\ nulls_fit nb n /\
      (fix go l := match l with [] => True | c :: q => (arrow_wf c /\ rlen c = n) /\ go q end) cols
  end.
(** A column that may not be null has no null buffer, and so for the fields of structs; a column of nulls may be null. *)
Fixpoint nulls_declared (r : aarray) (nl : bool) : Prop :=
  (nl = false -> rnulls r = None) /\
  match r with
  | RStruct _ nls cols _ _ =>
      (fix go l m := match l, m with c :: q, b :: p => nulls_declared c b /\ go q p | _, _ => True end) cols nls
  | _ => True
  end.
(** Strings that [canon] can decode: UTF-8, at most 2^31 bytes (for arrays with offsets). *)
Fixpoint text_only (r : aarray) : Prop :=
  match r with
  | RBytes u _ _ bytes _ => u = true /\ (Z.of_nat (length bytes) <= pmax I32)%Z
  | RStruct _ _ cols _ _ => (fix go l := match l with [] => True | c :: q => text_only c /\ go q end) cols
  | _ => True
  end.

(** Types with the time zones removed. *)
Fixpoint no_zone (t : atype) : atype :=
  match t with
  | TTimestamp u _ => TTimestamp u None
  | TStruct ns nls ts => TStruct ns nls (map no_zone ts)
  | t => t
  end.
(** Types with every string type replaced by the view type (the form Vortex exports), and fields of nulls marked as nullable. *)
Definition is_tnull (t : atype) : bool := match t with TNull => true | _ => false end.
Fixpoint as_views (t : atype) : atype :=
  match t with
  | TUtf8 _ => TUtf8 Views
  | TBinary _ => TBinary Views
  | TStruct ns nls ts => TStruct ns (map (fun p => fst p || is_tnull (snd p)) (combine nls ts)) (map as_views ts)
  | t => t
  end.
(** Arrow types Vortex supports. *)
Fixpoint supported (t : atype) : Prop :=
  match t with
  | TNull | TBool | TPrim _ | TUtf8 _ | TBinary _ => True
  | TStruct ns nls ts => length ns = length ts /\ length nls = length ts /\ (fix go l := match l with [] => True | c :: q => supported c /\ go q end) ts
  | TDuration _ | TOther _ => False
  | t => temporal_type t
  end.
(** Data types with an Arrow form: every extension type is temporal, with metadata as written by Vortex. *)
Fixpoint arrow_form (d : dtype) : Prop :=
  match d with
  | DStruct ns ds _ => length ns = length ds /\ (fix go l := match l with [] => True | c :: q => arrow_form c /\ go q end) ds
  | DExt e _ => exists m x, tz_ok (meta_tz m) /\ unit_allowed m /\ ext_of_meta m = Ok x /\ e = to_extid x
  | _ => True
  end.
(** Every struct has at least one field. *)
Fixpoint has_fields (d : dtype) : Prop :=
  match d with
  | DStruct _ ds _ => ds <> [] /\ (fix go l := match l with [] => True | c :: q => has_fields c /\ go q end) ds
  | _ => True
  end.
