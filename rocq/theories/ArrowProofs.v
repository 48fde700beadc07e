(** Importing Arrow arrays, and converting types (C48). *)
From Coq Require Import Cantor.
From Verif Require Import Base Spec Arr ArrRead ArrWf ArrReadProofs ArrSlice ArrSliceProofs ValidityModel ArrOps OpsBase OpsFlat PropIntEnc DateTime Temporal PropTemporal Arrow ArrowSpec.

(** * Extension ids *)
Lemma decode_code l : forall fuel, code l <= fuel -> decode fuel (code l) = l.
Proof.
  induction l as [|x l IH]; intros [|k] H; try reflexivity; cbn [code] in *; [lia|].
  cbn [decode]. rewrite Cantor.cancel_of_to. rewrite IH; [reflexivity|].
  pose proof (Cantor.to_nat_non_decreasing x (code l)). lia.
Qed.
Lemma tag_tid_tag i : tag_tid (tid_tag i) = i.
Proof. destruct i; reflexivity. Qed.
Lemma of_to_extid x : match x_meta x with None => True | Some b => Forall (fun z => (0 <= z)%Z) b end -> of_extid (to_extid x) = x.
Proof.
  intros H. unfold of_extid, to_extid.
  set (n := code (tid_tag (x_id x) :: match x_meta x with None => [] | Some b => 1 :: map Z.to_nat b end)).
  assert (match (if is_temporal (x_id x) then ETemporal n else EOther n) with ETemporal k | EOther k => k end = n) as -> by (destruct (is_temporal _); reflexivity).
  unfold n at 2. rewrite decode_code by (unfold n; lia). destruct x as [i [b|]]; cbn [x_id x_meta] in *; rewrite tag_tid_tag; [|reflexivity].
  f_equal. f_equal. rewrite map_map. clear n. induction H as [|z b Hz H IH]; [reflexivity|]. cbn [map]. rewrite IH, Z2Nat.id by exact Hz. reflexivity.
Qed.

Lemma utf8_nonneg_ n : forall s, length s <= n -> utf8_valid s = true -> Forall (fun z => (0 <= z)%Z) s.
Proof.
  induction n as [|n IH]; intros s L H; [destruct s; [constructor|cbn in L; lia]|].
  destruct s as [|a r1]; [constructor|]. cbn [length] in L. cbn [utf8_valid] in H. unfold cont in H.
  destruct ((0 <=? a) && (a <=? 127))%Z eqn:A; [constructor; [lia|apply IH; [lia|exact H]]|].
  destruct r1 as [|b r2]; [discriminate H|]. cbn [length] in L. destruct ((194 <=? a) && (a <=? 223))%Z eqn:B.
  { apply andb_true_iff in H. destruct H as [H1 H2]. constructor; [lia|]. constructor; [lia|]. apply IH; [lia|exact H2]. }
  destruct r2 as [|c r3]; [discriminate H|]. cbn [length] in L. destruct ((224 <=? a) && (a <=? 239))%Z eqn:C.
  { repeat (rewrite ?andb_true_iff in H). destruct H as [[[H1 H2] H3] H4]. constructor; [lia|]. constructor; [lia|]. constructor; [lia|]. apply IH; [lia|exact H4]. }
  destruct r3 as [|d r4]; [discriminate H|]. cbn [length] in L. repeat (rewrite ?andb_true_iff in H). destruct H as [[[[[H1 H2] H3] H4] H5] H6].
  do 4 (constructor; [lia|]). apply IH; [lia|exact H6].
Qed.
Lemma utf8_nonneg s : utf8_valid s = true -> Forall (fun z => (0 <= z)%Z) s.
Proof. apply (utf8_nonneg_ (length s)). lia. Qed.

Lemma meta_bytes_nonneg m b : tz_ok (meta_tz m) -> meta_bytes m = Ok b -> Forall (fun z => (0 <= z)%Z) b.
Proof.
  intros T E. assert (forall u, (0 <= unit_tag u)%Z) as U by (intros u; destruct u; cbn; lia).
  destruct m as [u|u|u [tz|]]; cbn [meta_bytes meta_tz tz_ok] in *; try (injection E as <-; repeat constructor; try apply U; lia).
  destruct (Z.of_nat (length tz) <=? pmax U16)%Z; [|discriminate E]. injection E as <-. constructor; [apply U|]. unfold u16_le. cbn [app].
  constructor; [lia|]. constructor; [lia|]. apply utf8_nonneg. tauto.
Qed.
Lemma ext_of_to m x : tz_ok (meta_tz m) -> ext_of_meta m = Ok x -> of_extid (to_extid x) = x.
Proof.
  intros T E. apply of_to_extid. unfold ext_of_meta in E. destruct (meta_bytes m) as [b| |] eqn:B; try discriminate E. injection E as <-. cbn [x_meta].
  exact (meta_bytes_nonneg m b T B).
Qed.
Lemma ext_of_meta_temporal m x : ext_of_meta m = Ok x -> is_temporal (x_id x) = true.
Proof. unfold ext_of_meta. destruct (meta_bytes m); try discriminate. intros E. injection E as <-. destruct m; reflexivity. Qed.

Lemma static_temporal t : temporal_type t -> temporal_type (static_type t).
Proof. destruct t; cbn; auto. Qed.
Lemma no_zone_static t : temporal_type t -> no_zone t = static_type t.
Proof. destruct t; cbn; auto; contradiction. Qed.
Lemma make_temporal_meta t x : make_temporal t = Ok x -> exists m, ext_of_meta m = Ok x /\ meta_tz m = match t with TTimestamp _ tz => tz | _ => None end.
Proof. destruct t; cbn [make_temporal]; intros H; try discriminate H; eexists; split; try exact H; reflexivity. Qed.

(** * Induction principles *)
Section Ind.
  Variable P : aarray -> Prop.
  Hypotheses (Hn : forall n, P (RNull n)) (Hb : forall o b n nb, P (RBool o b n nb)) (Hp : forall p l nb, P (RPrim p l nb))
    (Ht : forall t l nb, P (RTemp t l nb)) (Hs : forall u g o b nb, P (RBytes u g o b nb)) (Hv : forall u v b nb, P (RView u v b nb))
    (Hc : forall ns nls cols n nb, Forall P cols -> P (RStruct ns nls cols n nb)).
  Fixpoint aarray_ind' (r : aarray) : P r :=
    match r with
    | RNull n => Hn n | RBool o b n nb => Hb o b n nb | RPrim p l nb => Hp p l nb | RTemp t l nb => Ht t l nb
    | RBytes u g o b nb => Hs u g o b nb | RView u v b nb => Hv u v b nb
    | RStruct ns nls cols n nb => Hc ns nls cols n nb ((fix go l : Forall P l := match l with [] => Forall_nil P | x :: q => Forall_cons x (aarray_ind' x) (go q) end) cols)
    end.
End Ind.
Section IndT.
  Variable P : atype -> Prop.
  Hypotheses (H0 : forall t, match t with TStruct _ _ _ => False | _ => True end -> P t) (Hs : forall ns nls ts, Forall P ts -> P (TStruct ns nls ts)).
  Fixpoint atype_ind' (t : atype) : P t :=
    match t with
    | TStruct ns nls ts => Hs ns nls ts ((fix go l : Forall P l := match l with [] => Forall_nil P | x :: q => Forall_cons x (atype_ind' x) (go q) end) ts)
    | t => H0 t I
    end.
End IndT.
Section IndD.
  Variable P : dtype -> Prop.
  Hypotheses (H0 : forall d, match d with DStruct _ _ _ => False | _ => True end -> P d) (Hs : forall ns ds n, Forall P ds -> P (DStruct ns ds n)).
  Fixpoint dtype_ind_ (d : dtype) : P d :=
    match d with
    | DStruct ns ds n => Hs ns ds n ((fix go l : Forall P l := match l with [] => Forall_nil P | x :: q => Forall_cons x (dtype_ind_ x) (go q) end) ds)
    | d => H0 d I
    end.
End IndD.

(** Reading the nested conditions. *)
Lemma arrow_wf_struct ns nls cols n nb : arrow_wf (RStruct ns nls cols n nb) <->
  length ns = length cols /\ length nls = length cols /\ nulls_fit nb n /\ Forall (fun c => arrow_wf c /\ rlen c = n) cols.
Proof.
  cbn [arrow_wf]. assert (forall l, (fix go l := match l with [] => True | c :: q => (arrow_wf c /\ rlen c = n) /\ go q end) l <-> Forall (fun c => arrow_wf c /\ rlen c = n) l) as E.
  { induction l as [|c l IH]; [split; constructor|]. rewrite Forall_cons_iff, IH. tauto. }
  rewrite E. tauto.
Qed.
Lemma declared_struct ns nls cols n nb nl : nulls_declared (RStruct ns nls cols n nb) nl -> length nls = length cols ->
  (nl = false -> nb = None) /\ Forall2 nulls_declared cols nls.
Proof.
  cbn [nulls_declared rnulls]. intros [H1 H2] L. split; [exact H1|]. clear H1. revert nls L H2. induction cols as [|c cols IH]; intros [|b nls] L H2; try discriminate L; constructor; [tauto|].
  apply IH; [cbn in L; lia|tauto].
Qed.
Lemma text_only_struct ns nls cols n nb : text_only (RStruct ns nls cols n nb) -> Forall text_only cols.
Proof. cbn [text_only]. induction cols as [|c cols IH]; intros H; constructor; [tauto|]. apply IH. tauto. Qed.
Lemma supported_struct ns nls ts : supported (TStruct ns nls ts) -> length ns = length ts /\ length nls = length ts /\ Forall supported ts.
Proof.
  cbn [supported]. intros (H1 & H2 & H3). split; [exact H1|]. split; [exact H2|]. clear H1 H2. induction ts as [|t ts IH]; constructor; [tauto|]. apply IH. tauto.
Qed.
Lemma arrow_form_struct ns ds n : arrow_form (DStruct ns ds n) -> length ns = length ds /\ Forall arrow_form ds.
Proof. cbn [arrow_form]. intros (H1 & H2). split; [exact H1|]. clear H1. induction ds as [|t ts IH]; constructor; [tauto|]. apply IH. tauto. Qed.
Lemma has_fields_struct ns ds n : has_fields (DStruct ns ds n) -> ds <> [] /\ Forall has_fields ds.
Proof. cbn [has_fields]. intros (H1 & H2). split; [exact H1|]. clear H1. induction ds as [|t ts IH]; constructor; [tauto|]. apply IH. tauto. Qed.

(** * Importing *)
Lemma import_nulls nb nl n : nulls_fit nb n -> (nl = false -> nb = None) ->
  exists v, arrow_nulls nb nl = Ok v /\ vwf v n /\ vnullable v = nl /\ vfits v n = true /\ forall i, i < n -> vvalid v i = ok_at nb i.
Proof.
  intros F D. destruct (arrow_nulls_ok nb nl (tab n (ok_at nb))) as (v & E & W & N & V).
  - destruct nb as [b|]; cbn [ok_at nulls_fit] in *.
    + apply (nth_ext _ _ false false); [rewrite tab_length; exact F|]. intros i Hi. rewrite nth_tab by lia. reflexivity.
    + intros k Hk. rewrite tab_length in Hk. rewrite nth_tab by exact Hk. reflexivity.
  - exact D.
  - rewrite tab_length in *. exists v. split; [exact E|]. split; [exact W|]. split; [exact N|]. split; [apply vfits_vwf; exact W|].
    intros i Hi. rewrite V by exact Hi. apply nth_tab. exact Hi.
Qed.

(** The class of flags for which an imported array is well-formed. *)
Definition import_flags (f : flags) (r : aarray) : Prop :=
  fk f = false /\ fF f = false /\ fT f = false /\ fN f = false /\ (fc f = true \/ fC f = true -> text_only r).

Lemma nats_nth l i : i < length l -> nth i (nats l) 0 = Z.to_nat (nth i l 0%Z).
Proof. intros H. unfold nats. apply (map_nth_lt Z.to_nat l 0%Z). exact H. Qed.

Definition import_ok (f : flags) (r : aarray) : Prop := forall nl, arrow_wf r -> nulls_declared r nl -> import_flags f r ->
  exists a, from_arrow r nl = Ok a /\ wf f a /\ logical a = rlogical r /\ alen a = rlen r /\
    from_arrow_type (no_zone (rtype r)) nl = Ok (adtype a) /\ (nullable (adtype a) = nl).

Lemma import_columns f : forall cols nls n, Forall (import_ok f) cols -> Forall (fun c => arrow_wf c /\ rlen c = n) cols -> Forall2 nulls_declared cols nls ->
  Forall (import_flags f) cols ->
  exists cs, mapM (fun g => fst g (snd g)) (combine (map from_arrow cols) nls) = Ok cs /\ length cs = length cols /\
    Forall (fun x => wf f x /\ alen x = n) cs /\ map logical cs = map rlogical cols /\
    mapM (fun g => fst g (snd g)) (combine (map from_arrow_type (map no_zone (map rtype cols))) nls) = Ok (map adtype cs).
Proof.
  induction cols as [|c cols IH]; intros nls n HI HW HD HF; inversion HD as [|? b ? nls' D1 D2]; subst; [exists []; repeat split; constructor|].
  inversion HI as [|? ? I1 I2]; subst. inversion HW as [|? ? [W1 W1'] W2]; subst. inversion HF as [|? ? F1 F2]; subst.
  destruct (I1 b W1 D1 F1) as (a & E & Wa & La & Na & Ta & _). destruct (IH nls' (rlen c) I2 W2 D2 F2) as (cs & Es & Ln & Ws & Ls & Ts).
  exists (a :: cs). cbn [map combine mapM fst snd]. rewrite E. cbn [bind]. rewrite Es. cbn [bind]. rewrite Ta. cbn [bind]. rewrite Ts. cbn [bind].
  split; [reflexivity|]. split; [cbn; lia|]. split; [constructor; [split; assumption|exact Ws]|]. split; [congruence|reflexivity].
Qed.

Lemma from_arrow_ok f r : import_ok f r.
Proof.
  induction r as [n|o b n nb|p l nb|t l nb|u g o b nb|u vs b nb|ns nls cols n nb IH] using aarray_ind'; intros nl W D (Fk & FF & FT & FN & FX).
  - cbn [nulls_declared rnulls] in D. destruct nl; [|destruct D as [D _]; discriminate (D eq_refl)].
    exists (ANull n). repeat split.
  - cbn [arrow_wf] in W. destruct W as [W1 W2]. cbn [nulls_declared rnulls] in D. destruct D as [D _].
    destruct (import_nulls nb nl n W2 D) as (v & E & Wv & Nv & Fv & Vv). cbn [from_arrow]. rewrite E. cbn [bind]. unfold try_bool. rewrite Fv. cbn [expect].
    eexists. split; [reflexivity|]. pose proof (Nat.div_mod o 8 ltac:(lia)) as DM. pose proof (Nat.mod_upper_bound o 8 ltac:(lia)) as MB.
    split; [|split; [|split; [reflexivity|split; [cbn; rewrite Nv; reflexivity|exact Nv]]]].
    + cbn [wf]. rewrite skipn_length. split; [exact MB|]. split; [lia|exact Wv].
    + cbn [logical rlogical]. apply tab_ext. intros i Hi. rewrite Vv by exact Hi. destruct (ok_at nb i); [|reflexivity]. f_equal. rewrite nth_skipn. f_equal. lia.
  - cbn [arrow_wf] in W. destruct W as [W1 W2]. cbn [nulls_declared rnulls] in D. destruct D as [D _].
    destruct (import_nulls nb nl _ W2 D) as (v & E & Wv & Nv & Fv & Vv). cbn [from_arrow]. rewrite E. cbn [bind]. unfold try_prim. rewrite Fv. cbn [expect].
    eexists. split; [reflexivity|]. split; [split; assumption|]. split; [|split; [reflexivity|split; [cbn; rewrite Nv; reflexivity|exact Nv]]].
    cbn [logical rlogical]. apply tab_ext. intros i Hi. rewrite Vv by exact Hi. reflexivity.
  - cbn [arrow_wf] in W. destruct W as (W0 & W1 & W2). cbn [nulls_declared rnulls] in D. destruct D as [D _].
    destruct (import_nulls nb nl _ W2 D) as (v & E & Wv & Nv & Fv & Vv). cbn [from_arrow]. rewrite E. cbn [bind]. unfold try_prim. rewrite Fv. cbn [expect bind]. unfold wrap_temporal.
    destruct (arrow_temporal_type_roundtrip (fun s => s) ltac:(intros s _; reflexivity) _ (static_temporal t W0)) as (x & Ex & _). rewrite Ex. cbn [bind].
    eexists. split; [reflexivity|]. split; [split; [split; assumption|exact FF]|]. split; [|split; [reflexivity|split; [|exact Nv]]].
    + cbn [logical rlogical]. apply tab_ext. intros i Hi. rewrite Vv by exact Hi. reflexivity.
    + cbn [rtype adtype nullable]. rewrite Nv, (no_zone_static t W0). destruct t as [| | | | | | |u|u|u tz| | |]; cbn [temporal_type] in W0; try contradiction; cbn [static_type from_arrow_type] in *; rewrite Ex; reflexivity.
  - cbn [arrow_wf] in W. destruct W as (W1 & W2 & W3 & W4 & W5 & W6). cbn [nulls_declared rnulls] in D. destruct D as [D _].
    destruct (import_nulls nb nl _ W5 D) as (v & E & Wv & Nv & Fv & Vv). cbn [from_arrow]. rewrite E. cbn [bind]. unfold try_varbin. cbn [adtype vnullable alen int_nonnull].
    assert (is_int (if g then I64 else I32) = true) as -> by (destruct g; reflexivity). cbn [negb].
    destruct (Nat.eqb_spec (length o) 0); [lia|]. rewrite Fv. cbn [negb expect]. eexists. split; [reflexivity|].
    assert (logical (AVarBin u (APrim (if g then I64 else I32) o VNonNull) b v) = rlogical (RBytes u g o b nb)) as L.
    { change (logical (AVarBin u (APrim (if g then I64 else I32) o VNonNull) b v)) with
        (let ol := nats (ints (logical (APrim (if g then I64 else I32) o VNonNull))) in
         tab (length ol - 1) (fun i => if vvalid v i then VBytes (lslice b (nth i ol 0) (nth (i + 1) ol 0)) else VNull)).
      rewrite logical_nonnull_ints. cbv zeta. rewrite nats_length. cbn [rlogical]. apply tab_ext. intros i Hi. rewrite Vv by exact Hi.
      destruct (ok_at nb i); [|reflexivity]. rewrite !nats_nth by lia. reflexivity. }
    split; [|split; [exact L|split; [reflexivity|]]].
    + cbn [wf]. rewrite logical_nonnull_ints. split; [split; [exact W4|exact I]|]. split; [exists (if g then I64 else I32); split; [reflexivity|destruct g; reflexivity]|].
      split; [exact W1|]. split; [exact W2|]. split; [exact W3|]. split; [exact Wv|]. split; [intros Hu s Hs; rewrite L in Hs; exact (W6 Hu s Hs)|].
      split; [intros C; apply FX; auto|]. split; [intros C; apply FX; auto|]. split; [congruence|]. split; assumption.
    + cbn [rtype adtype]. destruct u, g; cbn; rewrite Nv; split; reflexivity.
  - cbn [arrow_wf] in W. destruct W as (W1 & W2 & W3). cbn [nulls_declared rnulls] in D. destruct D as [D _].
    destruct (import_nulls nb nl _ W2 D) as (v & E & Wv & Nv & Fv & Vv). cbn [from_arrow]. rewrite E. cbn [bind]. unfold try_view. rewrite Fv. cbn [negb expect].
    eexists. split; [reflexivity|].
    assert (logical (AView u vs b v) = rlogical (RView u vs b nb)) as L.
    { cbn [logical rlogical]. apply tab_ext. intros i Hi. rewrite Vv by exact Hi. reflexivity. }
    split; [|split; [exact L|split; [reflexivity|]]].
    + cbn [wf]. split; [exact W1|]. split; [exact Wv|]. split; [intros Hu s Hs; apply (W3 Hu s); rewrite <- L; exact Hs|]. intros K. congruence.
    + cbn [rtype adtype]. destruct u; cbn; rewrite Nv; split; reflexivity.
  - apply arrow_wf_struct in W. destruct W as (W1 & W2 & W3 & W4). apply declared_struct in D; [|exact W2]. destruct D as [D1 D2].
    destruct (import_nulls nb nl n W3 D1) as (v & E & Wv & Nv & Fv & Vv).
    assert (Forall (import_flags f) cols) as HF.
    { destruct (fc f || fC f) eqn:C.
      - assert (text_only (RStruct ns nls cols n nb)) as T by (apply FX; apply orb_true_iff in C; exact C). apply text_only_struct in T.
        eapply Forall_impl; [|exact T]. intros c Hc. unfold import_flags. auto.
      - apply Forall_forall. intros c _. unfold import_flags. repeat split; auto. apply orb_false_iff in C. destruct C as [-> ->]. intros [X|X]; discriminate X. }
    destruct (import_columns f cols nls n IH W4 D2 HF) as (cs & Ec & Lc & Wc & Lg & Tc). cbn [from_arrow]. rewrite Ec. cbn [bind]. rewrite E. cbn [bind].
    unfold try_struct. destruct (Nat.eqb_spec (length ns) (length cs)); [|lia]. cbn [negb].
    rewrite (proj2 (forallb_forall _ _)) by (intros x Hx; apply Nat.eqb_eq; rewrite Forall_forall in Wc; apply (Wc x Hx)). cbn [negb]. rewrite Fv. cbn [negb expect].
    eexists. split; [reflexivity|]. split; [apply wf_struct_iff; auto|]. split; [|split; [reflexivity|split; [|exact Nv]]].
    + cbn [logical rlogical]. rewrite Lg. apply tab_ext. intros i Hi. rewrite Vv by exact Hi. reflexivity.
    + cbn [rtype no_zone from_arrow_type adtype]. rewrite Tc. cbn [bind]. rewrite Nv. reflexivity.
Qed.

(** * Types *)
Lemma infer_then_import lossy (HL : lossless lossy) d : arrow_form d -> exists t, infer_data_type lossy d = Ok t /\ from_arrow_type t (nullable d) = Ok d.
Proof.
  induction d as [d H|ns ds n IH] using dtype_ind_.
  - intros F. destruct d as [|b|p b|b|b|ns ds b|e b]; try contradiction; try (eexists; split; reflexivity).
    cbn [arrow_form] in F. destruct F as (m & x & T & U & E & ->). cbn [infer_data_type nullable]. rewrite (ext_of_to m x T E), (ext_of_meta_temporal m x E).
    destruct (temporal_ext_roundtrip lossy HL m T U) as (x' & t & E' & A & B). rewrite E in E'. injection E' as <-. rewrite A. exists t. split; [reflexivity|].
    destruct t; try discriminate B; cbn [from_arrow_type]; rewrite B; reflexivity.
  - intros F. apply arrow_form_struct in F. destruct F as [_ F].
    assert (exists ts, mapM id (map (infer_data_type lossy) ds) = Ok ts /\
      mapM (fun g => fst g (snd g)) (combine (map from_arrow_type ts) (map nullable ds)) = Ok ds) as (ts & E1 & E2).
    { induction ds as [|d ds IHd]; [exists []; split; reflexivity|]. inversion IH as [|? ? I1 I2]; subst. inversion F as [|? ? F1 F2]; subst.
      destruct (I1 F1) as (t & T1 & T2). destruct (IHd I2 F2) as (ts & S1 & S2). exists (t :: ts). cbn [map mapM combine fst snd]. unfold id at 1. rewrite T1. cbn [bind]. rewrite S1. cbn [bind].
      rewrite T2. cbn [bind]. rewrite S2. split; reflexivity. }
    cbn [infer_data_type]. rewrite E1. cbn [bind]. eexists. split; [reflexivity|]. cbn [from_arrow_type nullable]. rewrite E2. reflexivity.
Qed.
Lemma import_then_infer lossy (HL : lossless lossy) t : supported t -> forall nl,
  exists d, from_arrow_type t nl = Ok d /\ infer_data_type lossy d = Ok (as_views t) /\ nullable d = (nl || is_tnull t)%bool.
Proof.
  induction t as [t H|ns nls ts IH] using atype_ind'; intros F nl.
  - assert (temporal_type t -> exists d, (do x <- make_temporal t; Ok (DExt (to_extid x) nl)) = Ok d /\ infer_data_type lossy d = Ok t /\ nullable d = nl) as K.
    { intros T. destruct (arrow_temporal_type_roundtrip lossy HL t T) as (x & E & A). rewrite E. cbn [bind]. eexists. split; [reflexivity|].
      cbn [infer_data_type nullable]. destruct (make_temporal_meta t x E) as (m & M & Z).
      assert (tz_ok (meta_tz m)) as TZ by (rewrite Z; destruct t; cbn in *; auto).
      rewrite (ext_of_to m x TZ M), (ext_of_meta_temporal m x M). split; [exact A|reflexivity]. }
    destruct t; cbn [supported] in F; try contradiction; cbn [from_arrow_type as_views is_tnull]; rewrite ?orb_false_r, ?orb_true_r; try (exact (K F)); eexists; (split; [reflexivity|]); split; reflexivity.
  - apply supported_struct in F. destruct F as (L1 & L2 & F).
    assert (exists ds, mapM (fun g => fst g (snd g)) (combine (map from_arrow_type ts) nls) = Ok ds /\ mapM id (map (infer_data_type lossy) ds) = Ok (map as_views ts) /\
      map nullable ds = map (fun p => (fst p || is_tnull (snd p))%bool) (combine nls ts)) as (ds & E1 & E2 & E3).
    { clear L1. revert nls L2. induction ts as [|t ts IHt]; intros [|b nls] L2; try discriminate L2; [exists []; repeat split|].
      inversion IH as [|? ? I1 I2]; subst. inversion F as [|? ? F1 F2]; subst. cbn [length] in L2.
      destruct (I1 F1 b) as (d & D1 & D2 & D3). destruct (IHt I2 F2 nls ltac:(lia)) as (ds & S1 & S2 & S3). exists (d :: ds). cbn [map mapM combine fst snd]. rewrite D1. cbn [bind].
      rewrite S1. cbn [bind]. split; [reflexivity|]. unfold id at 1. rewrite D2. cbn [bind]. rewrite S2. cbn [bind]. split; [reflexivity|]. congruence. }
    cbn [from_arrow_type]. rewrite E1. cbn [bind]. eexists. split; [reflexivity|]. cbn [infer_data_type as_views nullable is_tnull]. rewrite E2. cbn [bind]. rewrite E3, orb_false_r. split; reflexivity.
Qed.
