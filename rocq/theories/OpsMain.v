(** take, filter and into_canonical are correct for every array: induction on the nesting depth. *)
From Verif Require Import Base Spec SearchModel SearchProofs Arr ArrRead ArrWf ArrReadProofs ArrSearchProofs ArrSlice ArrSliceProofs ArrSliceMain
  ValidityModel PropValidity IntEnc PropIntEnc RunEnc PropRunEnc PropUnary PropDict ArrOps OpsBase OpsFlat OpsCanon OpsCanon2 OpsCanon3 OpsTake
  OpsVarBin OpsSparse OpsTake2 OpsChunked OpsFilter OpsFilter2 OpsFilter3.

Section Step.
  Variable rec : array -> ops_t.
  Variable M : nat.
  Hypothesis Hrec : forall b, depth b < M -> ops_good (rec b) b.

  Lemma recanon a : is_canon a = true -> exists c, o_canon (ops_step rec a) = Ok c.
  Proof.
    destruct a as [| | |u vs bufs v| | | | | | | | | | | | ]; try discriminate; intros _; cbn [ops_step o_canon]; try (eexists; reflexivity).
    destruct v as [| | |x]; cbn [to_logical to_null_buffer vnullable arrow_nulls bind]; eexists; reflexivity.
  Qed.
  Lemma retake f a ip idx : wf f a -> is_canon a = true -> flat (adtype a) = true -> Forall (fun i => i < alen a) idx ->
    exists b, o_take (ops_step rec a) ip idx = Ok b /\ is_canon b = true /\ wf f b /\ logical b = pick (logical a) idx /\
      erase (adtype b) = erase (adtype a) /\ (is_str (adtype a) = false \/ nullable (adtype a) = false -> adtype b = adtype a).
  Proof.
    intros W C Fl HI. destruct a as [n|o b n v|p l v|u vs bufs v| |ns fls n v|id st| | | | | | | | | ]; try discriminate; cbn [ops_step o_take alen] in *.
    - exists (ANull (length idx)). split; [apply null_take_good; exact HI|]. split; [reflexivity|]. split; [exact I|].
      split; [cbn [logical]; rewrite pick_repeat by exact HI; reflexivity|]. auto.
    - destruct (bool_take_good f o b n v idx W HI) as (bs & w & E & L & V1 & V2 & V3).
      exists (ABool 0 bs (length bs) w). split; [exact E|]. split; [reflexivity|]. split; [cbn [wf]; repeat split; auto; lia|]. split; [exact V3|].
      cbn [adtype erase]. rewrite V2. auto.
    - destruct (prim_take_good f p l v idx W HI) as (xs & w & E & L & R & V1 & V2 & V3).
      exists (APrim p xs w). split; [exact E|]. split; [reflexivity|]. split; [cbn [wf]; auto|]. split; [exact V3|]. cbn [adtype]. rewrite V2. auto.
    - destruct (view_take_good f u vs bufs v idx W HI) as (xs & w & E & L & V1 & V2 & V3).
      exists (AView u xs bufs w). split; [exact E|]. split; [reflexivity|]. split; [exact V1|]. split; [exact V3|]. cbn [adtype].
      split; [destruct u; reflexivity|]. intros [K|K]; [destruct u; discriminate|].
      assert (vnullable v = false) as N by (destruct u; exact K). destruct v; try discriminate. rewrite V2 by reflexivity. reflexivity.
  Qed.

  Lemma step_good a : depth a <= M -> ops_good (ops_step rec a) a.
  Proof.
    intros D. constructor.
    - destruct a.
      + eapply lval_null; eauto.
      + eapply lval_bool; eauto.
      + eapply lval_prim; eauto.
      + eapply lval_view; eauto.
      + eapply lval_varbin; eauto.
      + eapply lval_struct; eauto.
      + eapply lval_ext; eauto.
      + eapply lval_const; eauto.
      + eapply lval_sparse; eauto.
      + eapply lval_chunked; eauto.
      + eapply lval_dict; eauto.
      + eapply lval_runend; eauto.
      + eapply lval_for; eauto.
      + eapply lval_zigzag; eauto.
      + eapply lval_bitpacked; eauto.
      + eapply lval_bytebool; eauto.
    - destruct a.
      + eapply canon_null; eauto.
      + eapply canon_bool_; eauto.
      + eapply canon_prim_; eauto.
      + eapply canon_view_; eauto.
      + eapply canon_varbin; eauto.
      + eapply canon_struct; eauto.
      + eapply canon_ext; eauto.
      + eapply canon_const; eauto.
      + eapply canon_sparse; eauto.
      + eapply canon_chunked; eauto.
      + eapply canon_dict; eauto.
      + eapply canon_runend; eauto.
      + eapply canon_for; eauto.
      + eapply canon_zigzag; eauto.
      + eapply canon_bitpacked; eauto.
      + eapply canon_bytebool; eauto.
    - destruct a.
      + eapply take_null; eauto.
      + eapply take_bool; eauto.
      + eapply take_prim; eauto.
      + eapply take_view; eauto.
      + eapply take_varbin; eauto.
      + eapply take_struct; eauto.
      + eapply take_ext; eauto.
      + eapply take_const; eauto.
      + eapply take_sparse; eauto.
      + eapply take_chunked; eauto.
      + eapply take_dict; eauto.
      + eapply take_runend; eauto.
      + eapply take_for; eauto.
      + eapply take_zigzag; eauto.
      + eapply take_bitpacked; eauto.
      + eapply take_bytebool; eauto.
    - destruct a.
      + eapply filter_null; eauto.
      + eapply filter_bool; eauto.
      + eapply filter_prim; eauto.
      + eapply filter_view; eauto.
      + eapply filter_varbin; eauto.
      + eapply filter_struct; eauto.
      + eapply filter_ext; eauto.
      + eapply filter_const; eauto.
      + eapply filter_sparse; eauto.
      + eapply filter_chunked; eauto.
      + eapply filter_dict; eauto.
      + eapply filter_runend; eauto.
      + eapply filter_for; eauto.
      + eapply filter_zigzag; eauto.
      + eapply filter_bitpacked; eauto.
      + eapply filter_bytebool; eauto.
    - apply recanon.
    - intros f ip idx. apply retake.
    - intros ip idx b H. destruct a; try exact I. eapply sparse_take_shape; eauto.
  Qed.
End Step.

Theorem ops_correct n : forall a, depth a <= n -> ops_good (ops n a) a.
Proof.
  induction n as [|n IH]; intros a D; cbn [ops].
  - apply (step_good _ 0); [|exact D]. intros b Hb. lia.
  - apply (step_good _ (S n)); [|exact D]. intros b Hb. apply IH. lia.
Qed.
