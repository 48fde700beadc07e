(** The cost limit of the sampling compressor: encodings nest no deeper than it allows, also where choices are reused. *)
From Verif Require Import Base Spec Arr ArrRead ArrWf ArrSlice ValidityModel StatsModel ArrOps IntEnc RunEnc DictEnc Sampling Compressor Chooser ChooserProofs2.

(** The largest total cost of encodings nested in each other. *)
Fixpoint nested (t : tree) : nat :=
  match t with Tree c ts _ => cost c + list_max (map (fun o => match o with Some u => nested u | None => 0 end) ts) end.

Section Cost.
  Variable nb : array -> nat.
  Variables target_bytes target_rows sample_size sample_count max_cost overhead : nat.
  Variable draw : nat -> nat.
  Variable above_one : ratio -> bool.
  Variable exceeds : ratio -> ratio -> bool.
  Variable long_runs : array -> bool.
  Variable insert : codec -> list codec -> list codec.
  Definition within (d : nat) (o : option tree) : Prop := match o with Some t => d + nested t <= max_cost | None => d <= max_cost end.
  Lemma within_node d c ts m : d + cost c <= max_cost -> Forall (within (d + cost c)) ts -> within d (Some (Tree c ts m)).
  Proof.
    intros H F. cbn [within nested]. enough (list_max (map (fun o => match o with Some u => nested u | None => 0 end) ts) <= max_cost - (d + cost c)) by lia.
    apply list_max_le, Forall_map. eapply Forall_impl; [|exact F]. intros [u|]; cbn [within]; lia.
  Qed.
  Lemma within_children d c ts m : within d (Some (Tree c ts m)) -> Forall (within (d + cost c)) ts.
  Proof.
    cbn [within nested]. intros H.
    assert (list_max (map (fun o => match o with Some u => nested u | None => 0 end) ts) <= max_cost - (d + cost c)) as L by lia.
    apply list_max_le, (proj1 (Forall_map _ _ _)) in L. eapply Forall_impl; [|exact L]. intros [u|]; cbn [within]; lia.
  Qed.
  Lemma within_le d o : within d o -> d <= max_cost.
  Proof. destruct o; cbn [within]; lia. Qed.
  Lemma within_child d c like k o : d + cost c <= max_cost -> within d like -> (forall t, like = Some t -> troot t = c) -> child_of like k = Ok o -> within (d + cost c) o.
  Proof.
    intros Hd W R. destruct like as [[c' ts m]|]; cbn [child_of]; [|intros [= <-]; exact Hd]. specialize (R _ eq_refl). cbn [troot] in R. subst c'.
    destruct (nth_error ts k) as [u|] eqn:E; [|discriminate]. intros [= <-]. apply within_children in W. rewrite Forall_forall in W. apply W. exact (nth_error_In _ _ E).
  Qed.

  Local Notation can_compress := (can_compress long_runs).
  (** A choice to reuse matters only if it is applicable. *)
  Definition usable (d : nat) (like : option tree) (a : array) : Prop :=
    d <= max_cost /\ match like with Some t => can_compress (troot t) a = true -> within d like | None => True end.
  Lemma usable_within d o a : within d o -> usable d o a.
  Proof. intros H. split; [exact (within_le _ _ H)|]. destruct o; [intros _; exact H|exact I]. Qed.

  Section Step.
    Variable rec : recursion.
    Variable reca : ctx -> array -> result compressed.
    Hypothesis Hrec : forall x like a b t, usable (cdepth x) like a -> rec x like a = Ok (b, t) -> within (cdepth x) t.
    Hypothesis Hreca : forall x a b t, cdepth x <= max_cost -> reca x a = Ok (b, t) -> within (cdepth x) t.

    Ltac bnd H := match type of H with
      | bind ?r _ = Ok _ => let E := fresh "E" in destruct r as [?v| |] eqn:E; cbn [bind] in H; [|discriminate H|discriminate H]
      | (let '(_, _) := ?p in _) = Ok _ => destruct p
      | (if ?b then _ else _) = Ok _ => destruct b
      end.
    Section Codec.
      Variable x : ctx.
      Variable like : option tree.
      Definition pre (c : codec) : Prop := cdepth x + cost c <= max_cost /\ within (cdepth x) like /\ forall t, like = Some t -> troot t = c.

      Lemma child_cost c y k o a b t : pre c -> cdepth y = cdepth x + cost c -> child_of like k = Ok o -> rec y o a = Ok (b, t) -> within (cdepth x + cost c) t.
      Proof. intros (Hc & Hw & Hr) Hy Ho E. rewrite <- Hy. eapply Hrec; [|exact E]. apply usable_within. rewrite Hy. exact (within_child _ _ _ _ _ Hc Hw Hr Ho). Qed.
      Ltac node H := injection H as <- <-; apply within_node; [assumption|repeat constructor; try assumption].

      Lemma cost_for a b t : pre CFoR -> c_for rec like (for_compressor CFoR x) a = Ok (b, t) -> within (cdepth x) t.
      Proof.
        intros Hp H. pose proof Hp as (Hc & Hw & Hr). unfold c_for, leaf in H. destruct a as [| |p l v| | | | | | | | | | | | |]; try discriminate H. bnd H.
        assert (forall r y q, rec y like r = Ok q -> cdepth y = cdepth x + cost CFoR -> match r with APrim _ _ _ => False | _ => True end -> within (cdepth x + cost CFoR) (snd q)) as K.
        { intros r y [b' t'] Er Hy Nr. rewrite <- Hy. eapply Hrec; [|exact Er]. split; [rewrite Hy; exact Hc|]. destruct like as [u|]; [|exact I]. rewrite (Hr _ eq_refl). destruct r; try discriminate. contradiction Nr. }
        unfold for_compress in E. 
        assert (match v0 with APrim _ _ _ => False | _ => True end) as Nr.
        { destruct (s_min _) as [[? mn]|]; [|discriminate E]. destruct (is_int p); [|discriminate E]. destruct (_ =? _).
          - destruct (to_logical v (length l)); [injection E as <-; exact I|injection E as <-; exact I|]. destruct (match map _ _ with [] => _ | _ => _ end); [injection E as <-; exact I|discriminate E].
          - destruct mn; try discriminate E. injection E as <-. exact I. }
        destruct v0; try contradiction Nr; try (bnd H; pose proof (K _ _ _ E0 eq_refl Nr); bnd H; cbn [snd] in *; node H).
        bnd H. bnd H. bnd H. bnd H. node H. exact (child_cost _ (excluding CFoR (for_compressor CFoR x)) _ _ _ _ _ Hp eq_refl E0 E1).
      Qed.
      Lemma cost_zigzag a b t : pre CZigZag -> c_zigzag rec like (for_compressor CZigZag x) a = Ok (b, t) -> within (cdepth x) t.
      Proof.
        intros Hp H. pose proof Hp as (Hc & Hw & Hr). unfold c_zigzag, leaf in H. destruct a as [| |p l v| | | | | | | | | | | | |]; try discriminate H. bnd H. destruct v0; try discriminate H.
        bnd H. bnd H. bnd H. bnd H. node H. exact (child_cost _ (for_compressor CZigZag x) _ _ _ _ _ Hp eq_refl E0 E1).
      Qed.
      Lemma cost_bit allow a b t : pre (CBit allow) -> c_bit insert rec allow like (for_compressor (CBit allow) x) a = Ok (b, t) -> within (cdepth x) t.
      Proof.
        intros Hp H. pose proof Hp as (Hc & Hw & Hr). unfold c_bit, leaf, uncompressed in H. destruct a as [| |p l v| | | | | | | | | | | | |]; try discriminate H. destruct (s_bw _) as [freq|]; [|discriminate H].
        bnd H. cbv zeta in H. bnd H; [discriminate H|]. bnd H; [injection H as <- <-; exact (within_le _ _ Hw)|]. bnd H. bnd H. bnd H. node H.
        destruct (if 0 <? _ then _ else _) as [q|]; [|injection E0 as <- <-; exact Hc].
        bnd E0. bnd E0. bnd E0. injection E0 as <- <-. exact (child_cost _ (including insert (CBit false) (excluding (CBit true) (auxiliary (for_compressor (CBit allow) x)))) _ _ _ _ _ Hp eq_refl E2 E3).
      Qed.
      Lemma cost_runend a b t : pre CRunEnd -> c_runend rec like (for_compressor CRunEnd x) a = Ok (b, t) -> within (cdepth x) t.
      Proof.
        intros Hp H. pose proof Hp as (Hc & Hw & Hr). unfold c_runend, leaf in H. destruct a as [| |p l v| | | | | | | | | | | | |]; try discriminate H. bnd H. bnd H. bnd H. bnd H. bnd H. bnd H. bnd H. bnd H. bnd H. node H.
        - exact (child_cost _ (auxiliary (for_compressor CRunEnd x)) _ _ _ _ _ Hp eq_refl E E0).
        - exact (child_cost _ (excluding CRunEnd (for_compressor CRunEnd x)) _ _ _ _ _ Hp eq_refl E1 E2).
      Qed.
      Lemma cost_dict a b t : pre CDict -> c_dict rec like (for_compressor CDict x) a = Ok (b, t) -> within (cdepth x) t.
      Proof.
        intros Hp H. pose proof Hp as (Hc & Hw & Hr). unfold c_dict, leaf in H. destruct (dict_of a) as [[codes vals]|]; [|discriminate H]. repeat bnd H. node H.
        - exact (child_cost _ (excluding CDict (auxiliary (for_compressor CDict x))) _ _ _ _ _ Hp eq_refl E0 E1).
        - exact (child_cost _ (excluding CDict (for_compressor CDict x)) _ _ _ _ _ Hp eq_refl E2 E3).
      Qed.
      Lemma cost_sparse a b t : pre CSparse -> c_sparse rec like (for_compressor CSparse x) a = Ok (b, t) -> within (cdepth x) t.
      Proof.
        intros Hp H. pose proof Hp as (Hc & Hw & Hr). unfold c_sparse, leaf in H. destruct a; try discriminate H. repeat bnd H. node H.
        - exact (child_cost _ (auxiliary (for_compressor CSparse x)) _ _ _ _ _ Hp eq_refl E E0).
        - exact (child_cost _ (for_compressor CSparse x) _ _ _ _ _ Hp eq_refl E E1).
      Qed.
      Lemma cost_fields c : cost c = 0 -> forall fls likes fls' ts, cdepth x <= max_cost -> Forall (within (cdepth x)) likes ->
        c_fields rec (for_compressor c x) fls likes = Ok (fls', ts) -> Forall (within (cdepth x)) ts.
      Proof.
        intros Z. induction fls as [|f fls IH]; intros [|k likes] fls' ts Hc F H; cbn [c_fields] in H; try discriminate H; [injection H as <- <-; constructor|].
        inversion F as [|? ? Fk Fl]; subst. repeat bnd H. injection H as <- <-. constructor; [|exact (IH _ _ _ Hc Fl E0)].
        assert (cdepth (for_compressor c x) = cdepth x) as Dx by (cbn [for_compressor cdepth]; lia). rewrite <- Dx. eapply Hrec; [|exact E]. apply usable_within. rewrite Dx. exact Fk.
      Qed.
      Lemma cost_struct a b t : pre CStruct -> c_struct rec like (for_compressor CStruct x) a = Ok (b, t) -> within (cdepth x) t.
      Proof.
        intros Hp H. pose proof Hp as (Hc & Hw & Hr). unfold c_struct, leaf in H. destruct a; try discriminate H. cbv zeta in H. repeat bnd H. injection H as <- <-. apply within_node; [assumption|].
        cbn [cost] in *. rewrite Nat.add_0_r in *. refine (cost_fields CStruct eq_refl _ _ _ _ Hc _ E).
        destruct like as [[c' ts m]|].
        - pose proof (Hr _ eq_refl) as R. cbn [troot] in R. subst c'. apply within_children in Hw. cbn [cost] in Hw. rewrite Nat.add_0_r in Hw. exact Hw.
        - apply Forall_forall. intros o Ho. apply repeat_spec in Ho. subst o. exact (within_le _ _ Hw).
      Qed.
      Lemma cost_chunk_loop c : cost c = 0 -> forall cs previous cs' last, cdepth x <= max_cost -> within (cdepth x) (option_map fst previous) ->
        c_chunk_loop nb above_one exceeds rec reca (for_compressor c x) previous cs = Ok (cs', last) -> within (cdepth x) (option_map fst last).
      Proof.
        intros Z. induction cs as [|y cs IH]; intros previous cs' last Hc F H; cbn [c_chunk_loop] in H; [injection H as <- <-; exact F|].
        assert (cdepth (for_compressor c x) = cdepth x) as Dx by (cbn [for_compressor cdepth]; lia). repeat bnd H. cbv zeta in H.
        assert (within (cdepth x) o) as Fo by (rewrite <- Dx; eapply Hrec; [|exact E]; apply usable_within; rewrite Dx; exact F).
        injection H as <- <-. refine (IH _ _ _ Hc _ E1). clear IH E1.
        bnd E0.
        - bnd E0. bnd E0. injection E0 as <- <-. assert (within (cdepth x) o2) as F1 by (rewrite <- Dx; eapply Hreca; [|exact E1]; rewrite Dx; lia). destruct o2; exact F1.
        - injection E0 as <- <-. destruct previous as [q|]; [exact F|]. destruct o; exact Fo.
      Qed.
      Lemma cost_chunked a b t : pre CChunked -> c_chunked nb target_bytes target_rows above_one exceeds rec reca like (for_compressor CChunked x) a = Ok (b, t) -> within (cdepth x) t.
      Proof.
        intros Hp H. pose proof Hp as (Hc & Hw & Hr). unfold c_chunked in H. destruct a; try discriminate H. repeat bnd H. injection H as <- <-. apply within_node; [assumption|].
        cbn [cost] in *. rewrite Nat.add_0_r in *. constructor; [|constructor]. refine (cost_chunk_loop CChunked eq_refl _ _ _ _ Hc _ E1).
        destruct like as [[c' ts m]|]; cbn [like_into_parts] in E; [|injection E as <-; exact (within_le _ _ Hw)].
        pose proof (Hr _ eq_refl) as R. cbn [troot] in R. subst c'. apply within_children in Hw. cbn [cost] in Hw. rewrite Nat.add_0_r in Hw.
        destruct ts as [|[u|] [|? ?]]; try discriminate E; destruct m as [[r|]|]; try discriminate E; injection E as <-; [inversion Hw; assumption|inversion Hw; assumption].
      Qed.
      Lemma cost_codec c a b t : pre c -> codec_compress nb target_bytes target_rows above_one exceeds insert rec reca c like (for_compressor c x) a = Ok (b, t) -> within (cdepth x) t.
      Proof.
        intros Hp. destruct c; cbn [codec_compress].
        - destruct Hp as (Hc & _). intros H. unfold c_const, leaf in H. bnd H. injection H as <- <-. apply within_node; [assumption|constructor].
        - apply cost_chunked, Hp.
        - apply cost_struct, Hp.
        - apply cost_for, Hp.
        - apply cost_zigzag, Hp.
        - apply cost_bit, Hp.
        - apply cost_runend, Hp.
        - apply cost_dict, Hp.
        - apply cost_sparse, Hp.
      Qed.
    End Codec.

    Local Notation codec_compress := (codec_compress nb target_bytes target_rows above_one exceeds insert rec reca).
    Lemma cost_new x c a b t : cdepth x + cost c <= max_cost -> codec_compress c None (for_compressor c x) a = Ok (b, t) -> within (cdepth x) t.
    Proof. intros H. apply cost_codec. split; [exact H|]. split; [cbn [within]; lia|discriminate]. Qed.
    Lemma cost_find_go x s : cdepth x <= max_cost -> forall cs obj best z, Forall (fun c => cdepth x + cost c <= max_cost) cs -> (forall y, best = Some y -> within (cdepth x) (snd y)) ->
      find_go nb target_bytes target_rows overhead above_one exceeds long_runs insert rec reca cs s x obj best = Ok z -> forall y, z = Some y -> within (cdepth x) (snd y).
    Proof.
      intros Hx. induction cs as [|c cs IH]; intros obj best z F Hb H; cbn [find_go] in H; [injection H as <-; exact Hb|].
      inversion F as [|? ? Fc Fl]; subst. destruct (can_compress c s); [|exact (IH _ _ _ Fl Hb H)]. bnd H. destruct v as [b t].
      destruct (_ <? obj); [|exact (IH _ _ _ Fl Hb H)]. refine (IH _ _ _ Fl _ H). intros y [= <-]. exact (cost_new _ _ _ _ _ Fc E).
    Qed.
    Lemma cost_find_best x s cs b t : cdepth x <= max_cost -> Forall (fun c => cdepth x + cost c <= max_cost) cs ->
      find_best nb target_bytes target_rows overhead above_one exceeds long_runs insert rec reca cs s x = Ok (b, t) -> within (cdepth x) t.
    Proof.
      intros Hx F H. unfold find_best in H. bnd H. pose proof (cost_find_go x s Hx cs (nb s) None v F ltac:(discriminate) E) as K.
      destruct v as [z|]; [|injection H as <- <-; exact Hx]. specialize (K _ eq_refl). assert (z = (b, t)) as -> by congruence. exact K.
    Qed.
    Lemma cost_candidates x a : Forall (fun c => cdepth x + cost c <= max_cost) (candidates max_cost long_runs x a).
    Proof.
      apply Forall_forall. intros c. unfold candidates. set (cs := filter _ (enabled x)). intros H.
      assert (In c cs) as H'. { destruct (1 <? length cs); [apply filter_In in H; apply H|exact H]. }
      apply filter_In in H'. destruct H' as [_ H']. apply andb_true_iff in H'. apply Nat.leb_le, H'.
    Qed.
    Lemma cost_step_array x a b t : cdepth x <= max_cost ->
      step_array nb target_bytes target_rows sample_size sample_count max_cost overhead draw above_one exceeds long_runs insert rec reca x a = Ok (b, t) -> within (cdepth x) t.
    Proof.
      intros Hx H. unfold step_array in H. destruct (alen a =? 0); [injection H as <- <-; exact Hx|].
      assert (forall c, cost c = 0 -> codec_compress c None x a = Ok (b, t) -> within (cdepth x) t) as K.
      { intros c Z. assert (for_compressor c x = x) as Ex by (destruct x; unfold for_compressor; cbn; rewrite Z, Nat.add_0_r; reflexivity). rewrite <- Ex at 1. apply cost_new. lia. }
      set (body := if can_compress CConst a then _ else _) in H.
      assert (body = Ok (b, t) -> within (cdepth x) t) as Kb.
      { unfold body. clear H body. intros H. destruct (can_compress CConst a); [exact (K CConst eq_refl H)|]. destruct (candidates max_cost long_runs x a) as [|c0 cs0] eqn:Ec; [injection H as <- <-; exact Hx|].
        rewrite <- Ec in H. destruct (_ <=? _); [exact (cost_find_best x a _ b t Hx (cost_candidates x a) H)|]. bnd H. bnd H. bnd H.
        pose proof (cost_find_best x _ _ _ _ Hx (cost_candidates x a) E0) as W. destruct o as [u|]; [|injection H as <- <-; exact Hx].
        refine (cost_codec x (Some u) (troot u) a b t _ H). split; [|split; [exact W|intros u' [= <-]; reflexivity]]. destruct u. cbn [within nested troot] in *. lia. }
      destruct a; try exact (Kb H); [exact (K CStruct eq_refl H)|injection H as <- <-; exact Hx|exact (K CChunked eq_refl H)].
    Qed.
    Lemma cost_step x like a b t : usable (cdepth x) like a ->
      step nb target_bytes target_rows sample_size sample_count max_cost overhead draw above_one exceeds long_runs insert rec reca x like a = Ok (b, t) -> within (cdepth x) t.
    Proof.
      intros [Hx Hl] H. unfold step in H. destruct (alen a =? 0); [injection H as <- <-; exact Hx|].
      destruct like as [u|]; [|exact (cost_step_array x a b t Hx H)]. destruct (can_compress (troot u) a); [|exact (cost_step_array x a b t Hx H)].
      specialize (Hl eq_refl). refine (cost_codec x (Some u) (troot u) a b t _ H). split; [|split; [exact Hl|intros u' [= <-]; reflexivity]]. destruct u. cbn [within nested troot] in *. lia.
    Qed.
  End Step.

  Local Notation both := (both nb target_bytes target_rows sample_size sample_count max_cost overhead draw above_one exceeds long_runs insert).
  Lemma cost_both : forall fuel,
    (forall x like a b t, usable (cdepth x) like a -> fst (both fuel) x like a = Ok (b, t) -> within (cdepth x) t) /\
    (forall x a b t, cdepth x <= max_cost -> snd (both fuel) x a = Ok (b, t) -> within (cdepth x) t).
  Proof.
    induction fuel as [|fuel [IH1 IH2]]; cbn [Chooser.both fst snd].
    - split; [intros x like a b t [Hx _] [= <- <-]; exact Hx|intros x a b t Hx [= <- <-]; exact Hx].
    - split; [apply cost_step; assumption|apply cost_step_array; assumption].
  Qed.
End Cost.
