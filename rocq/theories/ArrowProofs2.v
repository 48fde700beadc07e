(** Exporting to Arrow (C48). *)
From Verif Require Import Base Spec Arr ArrRead ArrWf ArrReadProofs ArrSlice ArrSliceProofs ValidityModel ArrOps OpsBase OpsFlat PropIntEnc SearchProofs PropValidity PropValidity  PropOps DateTime Temporal PropTemporal Arrow ArrowSpec ArrowProofs.

Lemma export_nulls v n : vwf v n -> let nb := to_null_buffer (to_logical v n) in nulls_fit nb n /\ forall i, i < n -> ok_at nb i = vvalid v i.
Proof.
  intros W nb. pose proof (null_buffer_spec v n W) as H. fold nb in H. destruct nb as [b|].
  - subst b. cbn [nulls_fit ok_at]. split; [unfold vbits; apply tab_length|]. intros i Hi. apply nth_vbits. exact Hi.
  - split; [exact I|]. intros i Hi. symmetry. apply H. exact Hi.
Qed.

Section Export.
  Variable lossy : list Z -> list Z.
  Notation infer := (infer_data_type lossy).

  (** What holds of an exported array. *)
  Definition exported (c : array) (r : aarray) : Prop :=
    rlogical r = logical c /\ rlen r = alen c /\ nulls_fit (rnulls r) (rlen r) /\ exists t, infer (adtype c) = Ok t /\ rtype r = no_zone t.

  Lemma infer_str d d' t : derase d = derase d' -> (is_str d' = false -> d = d') -> infer d = Ok t -> infer d' = Ok t.
  Proof.
    intros H1 H2 E. destruct (is_str d') eqn:K; [|rewrite <- H2 by reflexivity; exact E].
    destruct d', d; try discriminate; exact E.
  Qed.
  Lemma has_fields_str d d' : derase d = derase d' -> (is_str d' = false -> d = d') -> has_fields d' -> has_fields d.
  Proof.
    intros H1 H2 E. destruct (is_str d') eqn:K; [|rewrite H2 by reflexivity; exact E].
    destruct d', d; try discriminate; exact I.
  Qed.

  Lemma export_field f a c r : wf f a -> fc f = true -> canon a = Ok c -> exported c r -> exported a r.
  Proof.
    intros W C E (X1 & X2 & X3 & t & X4 & X5). destruct (canonical_is_lossless f a W C) as [H _]. destruct (H c E) as (_ & L & A & K & D & _).
    split; [congruence|]. split; [congruence|]. split; [exact X3|]. exists t. split; [|exact X5]. exact (infer_str _ _ t K D X4).
  Qed.

  Lemma arrow_struct_ok ns nls cols nb r : arrow_struct ns nls cols nb = Ok r ->
    r = RStruct ns nls cols (match cols with [] => 0 | c :: _ => rlen c end) nb /\ nulls_fit nb (match cols with [] => 0 | c :: _ => rlen c end).
  Proof.
    unfold arrow_struct. destruct (forallb _ cols); [|discriminate]. cbn [negb]. destruct nb as [b|]; cbn [nulls_fit].
    - destruct (Nat.eqb_spec (length b) (match cols with [] => 0 | c :: _ => rlen c end)); [|discriminate]. cbn [negb].
      destruct (forallb _ (combine nls cols)); [|discriminate]. intros H. injection H as <-. auto.
    - cbn [negb]. destruct (forallb _ (combine nls cols)); [|discriminate]. intros H. injection H as <-. auto.
  Qed.

  Lemma into_arrow_ok : forall k f c r, wf f c -> fc f = true -> has_fields (adtype c) -> into_arrow lossy k c = Ok r -> exported c r.
  Proof.
    intros k. induction k as [k IH] using lt_wf_ind. intros f c r W C HF E.
    destruct c as [n|o b n v|p l v|u vs bufs v| |ns fls n v|e st| | | | | | | | | ]; try (destruct k; discriminate E).
    - assert (r = RNull n) as -> by (destruct k; cbn in E; congruence). split; [reflexivity|]. split; [reflexivity|]. split; [apply repeat_length|]. exists TNull. split; reflexivity.
    - assert (r = RBool o b n (to_null_buffer (to_logical v n))) as -> by (destruct k; cbn in E; congruence). cbn [wf] in W. destruct W as (W1 & W2 & W3).
      destruct (export_nulls v n W3) as [N1 N2]. split; [|split; [reflexivity|split; [exact N1|exists TBool; split; reflexivity]]].
      cbn [rlogical logical]. apply tab_ext. intros i Hi. rewrite N2 by exact Hi. reflexivity.
    - assert (r = RPrim p l (to_null_buffer (to_logical v (length l)))) as -> by (destruct k; cbn in E; congruence). cbn [wf] in W. destruct W as (W1 & W2).
      destruct (export_nulls v _ W2) as [N1 N2]. split; [|split; [reflexivity|split; [exact N1|exists (TPrim p); split; reflexivity]]].
      cbn [rlogical logical]. apply tab_ext. intros i Hi. rewrite N2 by exact Hi. reflexivity.
    - assert (r = RView u vs bufs (to_null_buffer (to_logical v (length vs)))) as -> by (destruct k; cbn in E; congruence). cbn [wf] in W. destruct W as (W1 & W2 & _).
      destruct (export_nulls v _ W2) as [N1 N2]. split; [|split; [reflexivity|split; [exact N1|]]].
      + cbn [rlogical logical]. apply tab_ext. intros i Hi. rewrite N2 by exact Hi. reflexivity.
      + cbn [adtype rtype]. destruct u; eexists; split; reflexivity.
    - destruct k as [|k]; [discriminate E|]. cbn [into_arrow] in E. apply wf_struct_iff in W. destruct W as (W1 & W2 & W3).
      cbn [adtype] in HF. apply has_fields_struct in HF. destruct HF as [HF0 HF].
      destruct (mapM _ fls) as [cols| |] eqn:M; try discriminate E. cbn [bind] in E. apply mapM_inv in M.
      apply arrow_struct_ok in E. destruct E as [-> N].
      assert (Forall2 exported fls cols) as X.
      { clear HF0 N W1. rewrite Forall_map in HF. revert W3 HF. induction M as [|x y fls cols Hx M IHM]; intros W3 HF; constructor.
        - inversion W3 as [|? ? [Wx _] _]; subst. inversion HF as [|? ? Hfx _]; subst. destruct (canon x) as [g| |] eqn:Eg; try discriminate Hx. cbn [bind] in Hx.
          destruct (canonical_is_lossless f x Wx C) as [CL _]. destruct (CL g Eg) as (_ & _ & _ & K & D & Wg).
          apply (export_field f x g y Wx C Eg). apply (IH k ltac:(lia) (cf f) g y Wg); [exact C| |exact Hx]. exact (has_fields_str _ _ K D Hfx).
        - inversion W3; subst. inversion HF; subst. apply IHM; assumption. }
      assert (match cols with [] => 0 | c :: _ => rlen c end = n) as Hn.
      { destruct X as [|x y fls cols X1 X2]; [contradiction HF0; reflexivity|]. inversion W3 as [|? ? [_ Hx] _]; subst. destruct X1 as (_ & X1 & _). exact X1. }
      rewrite Hn in *. destruct (export_nulls v n W2) as [N1 N2].
      split; [|split; [reflexivity|split; [exact N1|]]].
      + cbn [rlogical logical]. assert (map rlogical cols = map logical fls) as ->.
        { clear -X. induction X as [|x y fls cols (H & _) X IH]; [reflexivity|]. cbn [map]. congruence. }
        apply tab_ext. intros i Hi. rewrite N2 by exact Hi. reflexivity.
      + cbn [adtype infer_data_type rtype].
        assert (exists ts, mapM id (map infer (map adtype fls)) = Ok ts /\ map rtype cols = map no_zone ts) as (ts & T1 & T2).
        { clear -X. induction X as [|x y fls cols (_ & _ & _ & t & H1 & H2) X (ts & IH1 & IH2)]; [exists []; split; reflexivity|].
          exists (t :: ts). cbn [map mapM]. unfold id at 1. rewrite H1. cbn [bind]. rewrite IH1. cbn [bind]. split; [reflexivity|]. congruence. }
        rewrite T1. cbn [bind]. eexists. split; [reflexivity|]. cbn [no_zone]. rewrite T2, map_map. reflexivity.
    - assert ((if is_temporal (x_id (of_extid e)) then do m <- temporal_of lossy (of_extid e); temporal_to_arrow m st else Err) = Ok r) as E'
        by (destruct k; exact E). clear E.
      destruct (is_temporal (x_id (of_extid e))) eqn:T; [|discriminate E']. destruct (temporal_of lossy (of_extid e)) as [m| |] eqn:M; try discriminate E'. cbn [bind] in E'.
      unfold temporal_to_arrow, temporal_type_of in E'. destruct (arrow_of_meta m) as [t| |] eqn:A; try discriminate E'. cbn [bind] in E'.
      cbn [wf] in W. destruct W as [W _].
      destruct (adtype st) as [| |p nl| | | | ] eqn:D; try discriminate E'. destruct (ptype_eqb p _); [|discriminate E'].
      destruct (canon st) as [c| |] eqn:Ec; try discriminate E'. cbn [bind] in E'. destruct c as [| |q l v| | | | | | | | | | | | | ]; try discriminate E'. injection E' as <-.
      destruct (canonical_is_lossless f st W C) as [CL _]. destruct (CL _ Ec) as (_ & L & A' & _ & _ & Wc). cbn [wf] in Wc. destruct Wc as [Wc1 Wc2].
      destruct (export_nulls v _ Wc2) as [N1 N2]. split; [|split; [exact A'|split; [exact N1|]]].
      + cbn [logical] in *. rewrite <- L. cbn [rlogical]. apply tab_ext. intros i Hi. rewrite N2 by exact Hi. reflexivity.
      + exists t. cbn [adtype infer_data_type]. rewrite T. unfold make_arrow. rewrite M. split; [exact A|]. cbn [rtype].
        destruct m as [u|u|u tz]; destruct u; cbn in A; try discriminate A; injection A as <-; reflexivity.
  Qed.

  (** * Success *)
  (** Structs of columns in any (decodable) encoding, and of temporal columns with the storage type of their unit. *)
  Fixpoint exportable (a : array) : Prop :=
    match a with
    | AStruct _ fls _ _ => (fix go l := match l with [] => True | x :: q => exportable x /\ go q end) fls
    | AExt e st => exists m t n, is_temporal (x_id (of_extid e)) = true /\ temporal_of lossy (of_extid e) = Ok m /\ arrow_of_meta m = Ok t /\ adtype st = DPrim (storage_type t) n
    | _ => flat (adtype a) = true
    end.
  Lemma exportable_struct ns fls n v : exportable (AStruct ns fls n v) -> Forall exportable fls.
  Proof. cbn [exportable]. induction fls as [|x q IH]; intros H; constructor; [tauto|]. apply IH. tauto. Qed.

  Lemma rnull_value r i b : rnulls r = Some b -> i < rlen r -> nth i b false = false -> nth i (rlogical r) VNull = VNull.
  Proof.
    intros H Hi Hb. destruct r; cbn [rnulls rlen] in *; cbn [rlogical]; try (injection H as <-); subst; cbv zeta; rewrite ?nth_tab by exact Hi; cbn [ok_at]; rewrite ?Hb; try reflexivity.
    rewrite nth_repeat. reflexivity.
  Qed.
  Lemma exported_nonnull f a r : wf f a -> exported a r -> nullable (adtype a) = false ->
    match rnulls r with None => True | Some b => count negb b = 0 end.
  Proof.
    intros W (L & N & F & _) K. destruct (rnulls r) as [b|] eqn:R; [|exact I]. cbn [nulls_fit] in F. apply count_zero. intros x Hx. apply In_nth with (d := false) in Hx.
    destruct Hx as (i & Hi & <-). destruct (nth i b false) eqn:B; [reflexivity|]. exfalso.
    pose proof (rnull_value r i b R ltac:(lia) B) as V. rewrite L in V. pose proof (vtyped_logical a f W) as T.
    assert (i < length (logical a)) as Hl by (rewrite logical_length; lia). pose proof (Forall_nth_lt _ _ VNull i T Hl) as Ti. cbn beta in Ti. rewrite V in Ti.
    cbn [vtyped] in Ti. destruct (adtype a); cbn in K, Ti; congruence.
  Qed.

  Lemma flat_into_arrow f a c k : wf f a -> fc f = true -> flat (adtype a) = true -> canon a = Ok c -> exists r, into_arrow lossy k c = Ok r.
  Proof.
    intros W C F E. destruct (canonical_is_lossless f a W C) as [H _]. destruct (H c E) as (K & _ & _ & D & _ & _). unfold same_kind in D.
    rewrite <- (derase_flat _ _ D) in F. destruct c; try discriminate K; try (cbn in F; discriminate F); destruct k; eexists; reflexivity.
  Qed.

  Lemma sum_le_max l x : In x l -> x <= list_max l.
  Proof. intros H. pose proof (proj1 (list_max_le l (list_max l)) (le_n _)) as A. rewrite Forall_forall in A. apply A, H. Qed.

  Lemma export_total f : fc f = true -> fC f = true -> forall k a, wf f a -> exportable a -> has_fields (adtype a) -> ddepth (adtype a) <= k ->
    exists c r, canon a = Ok c /\ into_arrow lossy k c = Ok r.
  Proof.
    intros C CC k. induction k as [k IH] using lt_wf_ind. intros a W X HF K.
    destruct (canonical_is_lossless f a W C) as [_ CT]. destruct (CT CC) as [c Ec]. exists c.
    assert (flat (adtype a) = true -> exists r, canon a = Ok c /\ into_arrow lossy k c = Ok r) as FLAT.
    { intros F. destruct (flat_into_arrow f a c k W C F Ec) as [r Er]. exists r. auto. }
    destruct a as [n|o b n v|p l v|u vs bufs v|u o b v|ns fls n v|e st|d x n|ix vs o n fl|d cs|cd vs|e vs v o n|p e r s|e|p l bw o n v q|l v]; try (apply FLAT; first [exact X|reflexivity]).
    - pose proof W as W0. apply wf_struct_iff in W. destruct W as (W1 & W2 & W3). pose proof HF as HF'. cbn [adtype] in HF, K. apply has_fields_struct in HF. destruct HF as [HF0 HF].
      rewrite Forall_map in HF. apply exportable_struct in X.
      assert (c = AStruct ns fls n v) as -> by (unfold canon in Ec; cbn in Ec; congruence).
      destruct k as [|k]; [cbn in K; lia|]. cbn [ddepth] in K. rewrite map_map in K.
      assert (exists cols, mapM (fun x => do g <- canon x; into_arrow lossy k g) fls = Ok cols) as [cols M].
      { apply mapM_exists. intros x Hx. rewrite Forall_forall in W3, HF, X. destruct (W3 x Hx) as [Wx _].
        destruct (IH k ltac:(lia) x Wx (X x Hx) (HF x Hx)) as (g & r & Eg & Er).
        - pose proof (sum_le_max (map (fun x => ddepth (adtype x)) fls) (ddepth (adtype x)) (in_map (fun x => ddepth (adtype x)) fls x Hx)). lia.
        - exists r. rewrite Eg. exact Er. }
      cbn [into_arrow]. rewrite M. cbn [bind].
      assert (Forall2 (fun x y => wf f x /\ alen x = n /\ exported x y) fls cols) as XX.
      { apply mapM_inv in M. clear HF0 HF' W0 W1 IH K Ec FLAT CT X. revert W3 HF. induction M as [|x y fls cols Hx M IHM]; intros W3 HF; constructor.
        - inversion W3 as [|? ? [Wx Ax] _]; subst. inversion HF as [|? ? Hfx _]; subst. destruct (canon x) as [g| |] eqn:Eg; try discriminate Hx. cbn [bind] in Hx.
          destruct (canonical_is_lossless f x Wx C) as [CL _]. destruct (CL g Eg) as (_ & _ & _ & KK & D & Wg). split; [exact Wx|]. split; [reflexivity|].
          apply (export_field f x g y Wx C Eg). apply (into_arrow_ok k (cf f) g y Wg); [exact C| |exact Hx]. exact (has_fields_str _ _ KK D Hfx).
        - inversion W3; subst. inversion HF; subst. apply IHM; assumption. }
      assert (match cols with [] => 0 | c :: _ => rlen c end = n) as Hn.
      { destruct XX as [|x y fls cols (_ & X1 & X2 & X3 & _) _]; [contradiction HF0; reflexivity|]. congruence. }
      unfold arrow_struct. rewrite Hn.
      assert (forallb (fun c => rlen c =? n) cols = true) as ->.
      { apply forallb_forall. intros y Hy. apply Nat.eqb_eq. clear -XX Hy. induction XX as [|x y' fls cols (_ & X1 & _ & X2 & _) XX IHX]; [contradiction Hy|].
        destruct Hy as [<-|Hy]; [congruence|apply IHX; exact Hy]. }
      cbn [negb]. destruct (export_nulls v n W2) as [N1 _].
      assert (match to_null_buffer (to_logical v n) with Some b => length b =? n | None => true end = true) as ->.
      { destruct (to_null_buffer _); [apply Nat.eqb_eq; exact N1|reflexivity]. }
      cbn [negb].
      match goal with |- context [negb (forallb ?g ?l)] => assert (forallb g l = true) as -> end.
      { clear -XX. induction XX as [|x y fls cols (Wx & _ & Xx) XX IHX]; [reflexivity|]. cbn [map combine forallb fst snd]. rewrite IHX, andb_true_r.
        destruct (nullable (adtype x)) eqn:Nx; [reflexivity|]. cbn [orb]. pose proof (exported_nonnull f x y Wx Xx Nx) as Z. destruct (rnulls y) as [b|]; [|reflexivity].
        rewrite Z. apply orb_true_r. }
      cbn [negb]. eexists. split; [exact Ec|reflexivity].
    - cbn [exportable] in X. destruct X as (m & t & n & T & M & A & D).
      assert (c = AExt e st) as -> by (unfold canon in Ec; cbn in Ec; congruence).
      assert (exists r, (do m <- temporal_of lossy (of_extid e); temporal_to_arrow m st) = Ok r) as [r Er].
      { rewrite M. cbn [bind]. unfold temporal_to_arrow, temporal_type_of. rewrite A. cbn [bind]. rewrite D.
        assert (storage_type (static_type t) = storage_type t) as -> by (destruct t; reflexivity).
        assert (ptype_eqb (storage_type t) (storage_type t) = true) as -> by (destruct (storage_type t); reflexivity).
        cbn [wf] in W. destruct W as [W _]. destruct (canon_prim f st (storage_type t) n W C CC D) as (l & v & E & _). unfold into_prim in E.
        destruct (canon st) as [g| |]; try discriminate E. cbn [bind] in *. destruct g; try discriminate E. eexists. reflexivity. }
      exists r. split; [exact Ec|]. destruct k; cbn [into_arrow]; cbv zeta; rewrite T; exact Er.
  Qed.
End Export.
