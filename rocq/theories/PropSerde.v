(** C33: dtypes and scalars survive serialisation. *)
From Verif Require Import Base Spec CmpSpec Arr Scalars FloatCast PropScalar Serde.

Section XInd.
  Variable P : xdtype -> Prop.
  Hypothesis Hn : P XNull.
  Hypothesis Hb : forall n, P (XBool n).
  Hypothesis Hp : forall p n, P (XPrim p n).
  Hypothesis Hu : forall n, P (XUtf8 n).
  Hypothesis Hy : forall n, P (XBinary n).
  Hypothesis Hs : forall ns ts n, Forall P ts -> P (XStruct ns ts n).
  Hypothesis Hl : forall t n, P t -> P (XList t n).
  Hypothesis He : forall i m n, P (XExt i m n).
  Fixpoint xdtype_ind' (d : xdtype) : P d :=
    match d with
    | XNull => Hn | XBool n => Hb n | XPrim p n => Hp p n | XUtf8 n => Hu n | XBinary n => Hy n
    | XStruct ns ts n => Hs ns ts n ((fix go (l : list xdtype) : Forall P l := match l with [] => Forall_nil _ | x :: r => Forall_cons x (xdtype_ind' x) (go r) end) ts)
    | XList t n => Hl t n (xdtype_ind' t)
    | XExt i m n => He i m n
    end.
End XInd.

Lemma mapM_id_ok {A B} (f : A -> B) (g : B -> result A) l : Forall (fun x => g (f x) = Ok x) l -> mapM (fun h => h) (map g (map f l)) = Ok l.
Proof. induction 1 as [|x l H _ IH]; [reflexivity|]. cbn. rewrite H. cbn. now rewrite IH. Qed.

(** * DTypes *)
Theorem dtype_flatbuffer_round_trip d : from_fb (to_fb d) = Ok d.
Proof.
  induction d as [|n|p n|n|n|ns ts n IH|t n IH|i m n] using xdtype_ind'; try reflexivity.
  - destruct p; reflexivity.
  - cbn. rewrite (mapM_id_ok to_fb from_fb ts IH). reflexivity.
  - cbn. rewrite IH. reflexivity.
Qed.

Theorem dtype_protobuf_round_trip d : from_pb (to_pb d) = Ok d.
Proof.
  induction d as [|n|p n|n|n|ns ts n IH|t n IH|i m n] using xdtype_ind'; try reflexivity.
  - destruct p; reflexivity.
  - cbn. rewrite (mapM_id_ok to_pb from_pb ts IH). reflexivity.
  - cbn. rewrite IH. reflexivity.
Qed.

(** Different dtypes have different serialised forms. *)
Corollary dtype_flatbuffer_injective d e : to_fb d = to_fb e -> d = e.
Proof. intros H. assert (K : from_fb (to_fb d) = from_fb (to_fb e)) by now rewrite H. rewrite !dtype_flatbuffer_round_trip in K. congruence. Qed.

Lemma nth_error_map {A B} (f : A -> B) l i : nth_error (map f l) i = option_map f (nth_error l i).
Proof. revert i; induction l; intros [|i]; cbn; auto. Qed.

(** Reading a struct type with a projection is reading it and projecting: the names and types at the selected places. *)
Definition selected (ns : list bytes) (f : field) (i : nat) : Prop :=
  match f with FName n => nth_error ns i = Some n /\ (forall j, j < i -> nth_error ns j <> Some n) | FIndex j => i = j end.
Lemma position_spec n ns : match position n ns with Some i => selected ns (FName n) i /\ i < length ns | None => ~ In n ns end.
Proof.
  unfold position. cut (forall k, match (fix go (i : nat) (l : list bytes) := match l with [] => None | x :: r => if bytes_dec x n then Some i else go (S i) r end) k ns with
    Some i => k <= i /\ selected ns (FName n) (i - k) /\ i - k < length ns | None => ~ In n ns end).
  { intros H. specialize (H 0). destruct (_ 0 ns) as [i|]; [|exact H]. rewrite Nat.sub_0_r in H. tauto. }
  induction ns as [|x ns IH]; intros k; [intros []|]. destruct (bytes_dec x n) as [->|N].
  - rewrite Nat.sub_diag. repeat split; cbn; lia || congruence || (intros; lia).
  - specialize (IH (S k)). destruct (_ (S k) ns) as [i|].
    + destruct IH as (A & [B1 B2] & C). split; [lia|]. replace (i - k) with (S (i - S k)) by lia. cbn. repeat split; [exact B1| |lia].
      intros [|j] J; cbn; [congruence|]. apply B2; lia.
    + intros [E|E]; [congruence|]. now apply IH.
Qed.

Theorem project_flatbuffer ns ts n fs :
  length ns = length ts -> (forall i, In (FIndex i) fs -> i < length ns) ->
  (forall nm, In (FName nm) fs -> In nm ns) ->
  exists is,
    Forall2 (selected ns) fs is /\ Forall (fun i => i < length ns) is /\
    deserialize_and_project (to_fb (XStruct ns ts n)) fs = Ok (XStruct (map (fun i => nth i ns []) is) (map (fun i => nth i ts XNull) is) n) /\
    struct_project ns ts n fs = Ok (XStruct (map (fun i => nth i ns []) is) (map (fun i => nth i ts XNull) is) n).
Proof.
  intros L HI HN.
  assert (K : exists is, Forall2 (selected ns) fs is /\ Forall (fun i => i < length ns) is /\
    mapM (read_field ns (map to_fb ts)) fs = Ok (map (fun i => (nth i ns [], nth i ts XNull)) is) /\
    mapM (field_info ns ts) fs = Ok (map (fun i => (nth i ns [], nth i ts XNull)) is)).
  { induction fs as [|f fs IH]; [exists []; repeat split; constructor|].
    destruct IH as (is & A & B & C & D); [intros; apply HI; now right|intros; apply HN; now right|].
    assert (F : exists i, field_index ns f = Ok i /\ selected ns f i /\ i < length ns).
    { destruct f as [nm|i]; cbn [field_index].
      - pose proof (position_spec nm ns) as P. destruct (position nm ns) as [i|]; [exists i; tauto|]. exfalso; apply P, HN; now left.
      - exists i. repeat split. apply HI; now left. }
    destruct F as (i & F1 & F2 & F3). exists (i :: is).
    assert (N1 : nth_error ns i = Some (nth i ns [])) by (now apply nth_error_nth').
    assert (N2 : nth_error ts i = Some (nth i ts XNull)) by (apply nth_error_nth'; lia).
    repeat split; try (constructor; assumption).
    - cbn [mapM]. unfold read_field at 1. rewrite F1. cbn [bind]. rewrite N1, nth_error_map, N2. cbn [option_map]. rewrite dtype_flatbuffer_round_trip. cbn [bind]. rewrite C. reflexivity.
    - cbn [mapM]. unfold field_info at 1. rewrite F1. cbn [bind]. replace (length ns <? i) with false by (symmetry; apply Nat.ltb_ge; lia). rewrite N1, N2. cbn [bind]. rewrite D. reflexivity. }
  destruct K as (is & A & B & C & D). exists is. repeat split; try assumption.
  - cbn [to_fb deserialize_and_project fb_tag]. rewrite C. cbn [bind]. now rewrite !map_map.
  - unfold struct_project. rewrite D. cbn [bind]. now rewrite !map_map.
Qed.

(** An unknown name is an error. *)
Theorem project_unknown_name ns ts n nm fs : ~ In nm ns -> deserialize_and_project (to_fb (XStruct ns ts n)) (FName nm :: fs) = Err.
Proof.
  intros H. cbn [to_fb deserialize_and_project fb_tag mapM]. unfold read_field at 1. cbn [field_index].
  pose proof (position_spec nm ns) as P. destruct (position nm ns) as [i|]; [|reflexivity]. exfalso. destruct P as [[P _] _]. apply H. eapply nth_error_In, P.
Qed.

Example dtype_round_trip_example :
  let d := XStruct [[97%Z]; [98%Z]] [XList (XPrim F16 true) false; XStruct [] [] true] true in
  let e := XStruct [[97%Z]; [98%Z]] [d; XExt [120%Z] (Some [1%Z; 2%Z]) true] false in
  from_fb (to_fb e) = Ok e /\ from_pb (to_pb e) = Ok e /\
  deserialize_and_project (to_fb e) [FName [98%Z]; FIndex 0] = Ok (XStruct [[98%Z]; [97%Z]] [XExt [120%Z] (Some [1%Z; 2%Z]) true; d] false).
Proof. repeat split; reflexivity. Qed.

(** * Scalars through protobuf *)

(** No number of the given types at any depth. *)
Fixpoint without (ps : list ptype) (v : sval) : Prop :=
  match v with
  | SPrim p _ => ~ In p ps
  | SList l => (fix go (l : list sval) : Prop := match l with [] => True | x :: r => without ps x /\ go r end) l
  | _ => True
  end.
Lemma without_list ps l : without ps (SList l) <-> Forall (without ps) l.
Proof. induction l as [|x l IH]; cbn; [split; constructor|]. cbn in IH. rewrite IH. split; [intros [A B]; now constructor|intros H; inversion H; now split]. Qed.
Lemma has_type_struct ns ts n l : has_type (XStruct ns ts n) (SList l) <-> Forall2 has_type ts l.
Proof.
  revert l; induction ts as [|t ts IH]; intros [|x l]; cbn [has_type]; split; try (intros []; fail); try (intros H; inversion H; fail); try constructor; auto.
  - apply H.
  - apply IH, H.
  - inversion H; subst; assumption.
  - inversion H; subst. now apply IH.
Qed.

Lemma val_pb_round_trip v : forall d, has_type d v -> without [U8; U16; I8; I16] v -> val_from_pb d (val_to_pb v) = Ok v.
Proof.
  induction v as [b|p z|b|b|l IH|] using sval_ind'; intros d T W; try reflexivity.
  - destruct d as [|n|q n|n|n|ns ts n|t n|i m n]; try contradiction. destruct T as [-> R]. cbn in W. destruct p; try (exfalso; tauto); try reflexivity.
    cbn. replace (z <=? 65535)%Z with true; [reflexivity|]. symmetry; apply Z.leb_le. unfold in_range in R; cbn in R; lia.
  - apply without_list in W. destruct d as [|n|p n|n|n|ns ts n|t n|i m n]; try contradiction.
    + apply has_type_struct in T. cbn [val_to_pb val_from_pb].
      match goal with |- bind ?X _ = _ => enough (X = Ok l) as -> by reflexivity end.
      revert IH W. induction T as [|t x ts l Hx _ IHT]; intros IH W; [reflexivity|].
      inversion IH as [|? ? I1 I2]; subst. inversion W as [|? ? W1 W2]; subst. cbn [map]. rewrite (I1 t Hx W1). cbn [bind]. rewrite (IHT I2 W2). reflexivity.
    + cbn [has_type] in T. cbn [val_to_pb val_from_pb].
      match goal with |- bind ?X _ = _ => enough (X = Ok l) as -> by reflexivity end.
      revert IH W. induction T as [|x l Hx _ IHT]; intros IH W; [reflexivity|].
      inversion IH as [|? ? I1 I2]; subst. inversion W as [|? ? W1 W2]; subst. cbn [map mapM]. rewrite (I1 t Hx W1). cbn [bind]. rewrite (IHT I2 W2). reflexivity.
Qed.

Theorem scalar_protobuf_round_trip d v : has_type d v -> without [U8; U16; I8; I16] v -> scalar_from_pb (scalar_to_pb (d, v)) = Ok (d, v).
Proof. intros T W. cbn. rewrite dtype_protobuf_round_trip. cbn [bind]. now rewrite (val_pb_round_trip v d T W). Qed.

(** i8 and i16 come back as i32: the same number when read, though the scalar is not equal to the original. *)
Lemma pv_as_int p q z : is_float p = false -> is_float q = false -> in_range p z -> pv_as p q z = Ok z.
Proof. intros P Q R. unfold pv_as, num_cast. rewrite P, Q. apply in_rangeb_spec in R. now rewrite R. Qed.

Lemma read_as_null d : read_as d SNull = Ok SNull.
Proof. destruct d; reflexivity. Qed.
Lemma val_pb_reads v : forall d, has_type d v -> without [U8; U16] v -> exists w, val_from_pb d (val_to_pb v) = Ok w /\ read_as d w = Ok v.
Proof.
  induction v as [b|p z|b|b|l IH|] using sval_ind'; intros d T W.
  - exists (SBool b). split; [reflexivity|]. destruct d; try contradiction; reflexivity.
  - destruct d as [|n|q n|n|n|ns ts n|t n|i m n]; try contradiction. destruct T as [-> R]. cbn in W.
    assert (E : exists q, val_from_pb (XPrim p n) (val_to_pb (SPrim p z)) = Ok (SPrim q z) /\ pv_as p q z = Ok z).
    { destruct (in_dec ptype_dec p [I8; I16]) as [I|N].
      - exists I32. split; [destruct I as [<-|[<-|[]]]; reflexivity|]. apply pv_as_int; [destruct I as [<-|[<-|[]]]; reflexivity|reflexivity|exact R].
      - exists p. split; [|now apply pv_as_self]. apply val_pb_round_trip; [split; [reflexivity|exact R]|]. cbn in *. tauto. }
    destruct E as (k & E1 & E2). exists (SPrim k z). split; [exact E1|]. cbn [read_as]. rewrite E2. reflexivity.
  - exists (SBuf b). split; [reflexivity|]. destruct d; try contradiction; reflexivity.
  - exists (SStr b). split; [reflexivity|]. destruct d; try contradiction; reflexivity.
  - apply without_list in W. destruct d as [|n|p n|n|n|ns ts n|t n|i m n]; try contradiction.
    + apply has_type_struct in T. cbn [val_to_pb val_from_pb].
      match goal with |- exists w, bind ?X _ = _ /\ _ => enough (exists ws, X = Ok ws /\ read_as (XStruct ns ts n) (SList ws) = Ok (SList l)) as (ws & -> & R) by (exists (SList ws); split; [reflexivity|exact R]) end.
      revert IH W. induction T as [|t x ts l Hx _ IHT]; intros IH W; [exists []; split; reflexivity|].
      inversion IH as [|? ? I1 I2]; subst. inversion W as [|? ? W1 W2]; subst. destruct (I1 t Hx W1) as (w & E1 & E2). destruct (IHT I2 W2) as (ws & F1 & F2).
      exists (w :: ws). cbn [map]. rewrite E1. cbn [bind]. rewrite F1. cbn [bind]. split; [reflexivity|].
      cbn [read_as] in F2 |- *. rewrite E2. cbn [bind].
      match type of F2 with bind ?X _ = _ => destruct X as [vs| |]; try discriminate F2 end. cbn [bind] in F2 |- *. injection F2 as ->. reflexivity.
    + cbn [has_type] in T. cbn [val_to_pb val_from_pb].
      match goal with |- exists w, bind ?X _ = _ /\ _ => enough (exists ws, X = Ok ws /\ read_as (XList t n) (SList ws) = Ok (SList l)) as (ws & -> & R) by (exists (SList ws); split; [reflexivity|exact R]) end.
      revert IH W. induction T as [|x l Hx _ IHT]; intros IH W; [exists []; split; reflexivity|].
      inversion IH as [|? ? I1 I2]; subst. inversion W as [|? ? W1 W2]; subst. destruct (I1 t Hx W1) as (w & E1 & E2). destruct (IHT I2 W2) as (ws & F1 & F2).
      exists (w :: ws). cbn [map mapM]. rewrite E1. cbn [bind]. rewrite F1. cbn [bind]. split; [reflexivity|].
      cbn [read_as map mapM] in F2 |- *. rewrite E2. cbn [bind].
      match type of F2 with bind ?X _ = _ => destruct X as [vs| |]; try discriminate F2 end. cbn [bind] in F2 |- *. injection F2 as ->. reflexivity.
  - exists SNull. split; [reflexivity|apply read_as_null].
Qed.

Theorem scalar_protobuf_reads_back d v :
  has_type d v -> without [U8; U16] v -> exists w, scalar_from_pb (scalar_to_pb (d, v)) = Ok (d, w) /\ read_as d w = Ok v.
Proof. intros T W. destruct (val_pb_reads v d T W) as (w & E & R). exists w. split; [|exact R]. cbn. rewrite dtype_protobuf_round_trip. cbn [bind]. now rewrite E. Qed.

(** u8 and u16 do not come back at all; i8 and i16 come back unequal. *)
Theorem scalar_protobuf_round_trip_refuted :
  has_type (XPrim U8 false) (SPrim U8 7) /\ scalar_from_pb (scalar_to_pb (XPrim U8 false, SPrim U8 7)) = Err /\
  scalar_from_pb (scalar_to_pb (XPrim U16 false, SPrim U16 7)) = Err /\
  scalar_from_pb (scalar_to_pb (XPrim I8 false, SPrim I8 7)) = Ok (XPrim I8 false, SPrim I32 7) /\ scalar_eqb (XPrim I8 false, SPrim I8 7) (XPrim I8 false, SPrim I32 7) = false.
Proof. repeat split; try reflexivity; cbn; lia. Qed.

(** * Scalars through flatbuffers (flexbuffers) *)
Fixpoint no_bytes (v : sval) : Prop :=
  match v with
  | SBuf _ => False
  | SPrim p _ => p <> F16
  | SList l => (fix go (l : list sval) : Prop := match l with [] => True | x :: r => no_bytes x /\ go r end) l
  | _ => True
  end.
Lemma no_bytes_list l : no_bytes (SList l) <-> Forall no_bytes l.
Proof. induction l as [|x l IH]; cbn; [split; constructor|]. cbn in IH. rewrite IH. split; [intros [A B]; now constructor|intros H; inversion H; now split]. Qed.

(** Whatever integer types the values come back in, reading them with the dtype gives the original. *)
Theorem scalar_flatbuffer_reads_back v : forall d w, has_type d v -> no_bytes v -> wire (to_serde v) w -> read_as d w = Ok v.
Proof.
  induction v as [b|p z|b|b|l IH|] using sval_ind'; intros d w T N W.
  - inversion W; subst. destruct d; try contradiction; reflexivity.
  - destruct d as [|n|q n|n|n|ns ts n|t n|i m n]; try contradiction. destruct T as [-> R]. cbn in N. assert (E : to_serde (SPrim p z) = SPrim p z) by (destruct p; cbn; congruence).
    rewrite E in W. inversion W as [? q ? P Q Rq|? ? P| | | |]; subst; cbn [read_as].
    + rewrite pv_as_int by assumption. reflexivity.
    + rewrite pv_as_self by assumption. reflexivity.
  - contradiction.
  - inversion W; subst. destruct d; try contradiction; reflexivity.
  - apply no_bytes_list in N. cbn [to_serde] in W. inversion W as [| | | | |? r F]; subst. clear W. destruct d as [|n|p n|n|n|ns ts n|t n|i m n]; try contradiction.
    + apply has_type_struct in T. cbn [read_as]. match goal with |- bind ?X _ = _ => enough (X = Ok l) as -> by reflexivity end.
      revert r F IH N. induction T as [|t x ts l Hx _ IHT]; intros r F IH N; inversion F; subst; [reflexivity|].
      inversion IH as [|? ? I1 I2]; subst. inversion N as [|? ? N1 N2]; subst. erewrite I1 by eassumption. cbn [bind]. erewrite IHT by eassumption. reflexivity.
    + cbn [has_type] in T. cbn [read_as]. match goal with |- bind ?X _ = _ => enough (X = Ok l) as -> by reflexivity end.
      revert r F IH N. induction T as [|x l Hx _ IHT]; intros r F IH N; inversion F; subst; [reflexivity|].
      inversion IH as [|? ? I1 I2]; subst. inversion N as [|? ? N1 N2]; subst. cbn [map mapM]. erewrite I1 by eassumption. cbn [bind]. erewrite IHT by eassumption. reflexivity.
  - inversion W; subst. apply read_as_null.
Qed.

(** A binary scalar comes back as a list of numbers, which is not a binary value; an f16 whose bits come back as u8 cannot be read. *)
Theorem scalar_flatbuffer_round_trip_refuted :
  (forall w, wire (to_serde (SBuf [1; 2]%Z)) w -> read_as (XBinary false) w = Err) /\
  has_type (XPrim F16 false) (SPrim F16 0) /\ wire (to_serde (SPrim F16 0)) (SPrim U8 0) /\ read_as (XPrim F16 false) (SPrim U8 0) = Err.
Proof.
  split; [intros w W; inversion W; reflexivity|]. split; [split; [reflexivity|unfold in_range; cbn; lia]|]. split; [|reflexivity].
  apply wire_int; try reflexivity. unfold in_range; cbn; lia.
Qed.

Example scalar_round_trip_example :
  let d := XStruct [[97%Z]; [98%Z]] [XList (XPrim U64 true) false; XUtf8 false] true in
  let v := SList [SList [SPrim U64 7; SNull]; SStr [104; 105]%Z] in
  has_type d v /\ without [U8; U16; I8; I16] v /\ no_bytes v /\ wire (to_serde v) (SList [SList [SPrim U8 7; SNull]; SStr [104; 105]%Z]) /\
  scalar_from_pb (scalar_to_pb (d, v)) = Ok (d, v).
Proof.
  cbn. split; [|split; [|split; [|split]]].
  - repeat constructor; unfold in_range; cbn; lia.
  - repeat split; try tauto; intros [H|[H|[H|[H|[]]]]]; discriminate H.
  - repeat split; discriminate.
  - constructor. constructor; [|constructor; [constructor|constructor]]. constructor. constructor; [|constructor; [constructor|constructor]].
    apply wire_int; try reflexivity. unfold in_range; cbn; lia.
  - reflexivity.
Qed.

Print Assumptions scalar_protobuf_reads_back.
Print Assumptions scalar_flatbuffer_reads_back.
Print Assumptions project_flatbuffer.
