(** C18, rechunking: ChunkedArray::rechunk keeps every row and its order, and follows the target sizes. *)
From Verif Require Import Base Spec Arr ArrWf ArrReadProofs ArrSlice ValidityModel ArrOps OpsBase PropOps Compressor CompressorProofs4.

(** ChunkedArray::rechunk, array/chunked/mod.rs:144-186, with the [try_new] at its end. *)
Definition rechunk_array (nb : array -> nat) (tb tr : nat) (d : dtype) (cs : list array) : result array :=
  do xs <- rechunk nb tb tr d cs; try_chunked xs d.

(** Decoding chunks of strings keeps the type. *)
Lemma canon_binary nl cs r : canon (AChunked (DBinary nl) cs) = Ok r -> adtype r = DBinary nl.
Proof.
  intros E. unfold canon in E. change (depth (AChunked (DBinary nl) cs)) with (S (list_max (map depth cs))) in E. cbn [ops] in E. set (rec := ops _) in E. cbn [ops_step o_canon] in E.
  set (lv := if nullable (DBinary nl) then _ else _) in E.
  assert (forall v, lv = Ok v -> vnullable v = nl) as NL.
  { intros v El. unfold lv in El. cbn [nullable] in El. destruct nl.
    - unfold rmap in El. set (z := bind (mapM _ _) _) in El. clearbody z. destruct z as [x| |]; [|discriminate El|discriminate El]. cbn [bind] in El. injection El as <-. destruct x; reflexivity.
    - injection El as <-. reflexivity. }
  clearbody lv. destruct lv as [v| |]; [|discriminate E|discriminate E]. cbn [bind] in E. unfold chunked_canon in E. destruct (negb _); [discriminate E|].
  destruct (mapM _ _) as [ls| |]; [|discriminate E|discriminate E]. cbn [bind] in E. destruct (pack_views [] [] ls) as [vs bufs]. unfold try_view in E. destruct (negb _); [discriminate E|]. injection E as <-.
  cbn [adtype]. rewrite (NL v eq_refl). reflexivity.
Qed.
Lemma canon_chunked_type f d cs r : wf f (AChunked d cs) -> fc f = true -> canon (AChunked d cs) = Ok r -> adtype r = d.
Proof.
  intros W C E. destruct (canonical_is_lossless f _ W C) as [CL _]. destruct (CL r E) as (_ & _ & _ & _ & D & _).
  destruct d as [|nl|p nl|nl|nl|ns ts nl|id nl]; try (apply D; reflexivity).
  - destruct (canon_utf8 nl cs r E) as (vs & bufs & v & -> & <-). reflexivity.
  - exact (canon_binary nl cs r E).
Qed.

Section Rechunk.
  (** The sizes of arrays in bytes and the targets are arbitrary. *)
  Variable nb : array -> nat.
  Variables tb tr : nat.

  (** A new chunk: either an old one above a target, as it was; or consecutive old ones decoded into one, within both targets. *)
  Definition regrouped (g : list array) (c : array) : Prop :=
    (g = [c] /\ (tb < nb c \/ tr < alen c)) \/
    (g <> [] /\ list_sum (map nb g) <= tb /\ list_sum (map alen g) <= tr /\ is_canon c = true /\ logical c = concat (map logical g)).

  (** No new chunk could have taken the next old one as well. *)
  Fixpoint full (gs : list (list array)) : Prop :=
    match gs with
    | g :: ((h :: _) as r) => match h with c :: _ => tb < list_sum (map nb g) + nb c \/ tr < list_sum (map alen g) + alen c | [] => False end /\ full r
    | _ => True
    end.
  Lemma full_cons g gs xs cs : Forall2 regrouped gs xs -> concat gs = cs -> full gs ->
    match cs with c :: _ => tb < list_sum (map nb g) + nb c \/ tr < list_sum (map alen g) + alen c | [] => True end -> full (g :: gs).
  Proof.
    intros R <- F H. destruct R as [|h x gs xs [[-> _]|(N & _)] R]; [exact I| |]; (split; [|exact F]).
    - exact H.
    - destruct h as [|c h]; [exact (N eq_refl)|exact H].
  Qed.

  Section Proofs.
    Variable f : flags.
    Variable d : dtype.
    Variable N : nat.
    Hypothesis C : fc f = true.
    Hypothesis K : forall g, g <> [] -> Forall (fun c => wf f c /\ adtype c = d) g -> list_sum (map alen g) <= N -> wf f (AChunked d g).

    Lemma combined g : g <> [] -> Forall (fun c => wf f c /\ adtype c = d) g -> list_sum (map alen g) <= N ->
      (forall c, combine_chunks d g = Ok c -> is_canon c = true /\ logical c = concat (map logical g) /\ adtype c = d) /\
      (fC f = true -> exists c, combine_chunks d g = Ok c).
    Proof.
      intros G F H. unfold combine_chunks, try_chunked.
      rewrite (proj2 (forallb_forall _ _)) by (intros c Hc; apply dtype_eqb_eq; rewrite Forall_forall in F; apply (F c Hc)). cbn [bind].
      destruct (canonical_is_lossless f _ (K g G F H) C) as [CL CT]. split; [|exact CT].
      intros c E. destruct (CL c E) as (K1 & K2 & _). split; [exact K1|]. split; [exact K2|]. exact (canon_chunked_type f d g c (K g G F H) C E).
    Qed.

    Lemma rechunk_go_ok : forall cs acc, Forall (fun c => wf f c /\ adtype c = d) (acc ++ cs) -> list_sum (map alen (acc ++ cs)) <= N ->
      list_sum (map nb acc) <= tb -> list_sum (map alen acc) <= tr ->
      (forall xs, rechunk_go nb tb tr d acc (list_sum (map nb acc)) (list_sum (map alen acc)) cs = Ok xs ->
         (exists gs, concat gs = acc ++ cs /\ Forall2 regrouped gs xs /\ full gs) /\ Forall (fun c => adtype c = d) xs) /\
      (fC f = true -> exists xs, rechunk_go nb tb tr d acc (list_sum (map nb acc)) (list_sum (map alen acc)) cs = Ok xs).
    Proof.
      assert (forall l r, Forall (fun c : array => wf f c /\ adtype c = d) (l ++ r) -> list_sum (map alen (l ++ r)) <= N ->
        list_sum (map alen l) <= N /\ list_sum (map alen r) <= N /\ Forall (fun c => wf f c /\ adtype c = d) l /\ Forall (fun c => wf f c /\ adtype c = d) r) as Sp.
      { intros l r F H. rewrite map_app, list_sum_app in H. apply Forall_app in F. destruct F. repeat split; try assumption; lia. }
      induction cs as [|c cs IH]; intros acc F HN Hb Hn; cbn [rechunk_go].
      - rewrite app_nil_r in *. destruct acc as [|a0 acc'] eqn:Ea.
        + split; [|eauto]. intros xs [= <-]. split; [exists []; split; [reflexivity|split; [constructor|exact I]]|constructor].
        + rewrite <- Ea in *. assert (acc <> []) as G by (rewrite Ea; discriminate). clear Ea. destruct (combined acc G F HN) as [C1 C2]. split.
          * intros xs E. destruct (combine_chunks d acc) as [x| |]; try discriminate E. cbn [bind] in E. injection E as <-. destruct (C1 x eq_refl) as (X1 & X2 & X3).
            split; [|constructor; [exact X3|constructor]]. exists [acc]. cbn [concat]. rewrite app_nil_r. split; [reflexivity|]. split; [|exact I]. constructor; [|constructor]. right. auto.
          * intros T. destruct (C2 T) as [x ->]. cbn [bind]. eauto.
      - destruct (Sp acc (c :: cs) F HN) as (N1 & N2 & F1 & F2). pose proof (Forall_inv F2) as [Wc Dc]. pose proof (Forall_inv_tail F2) as F3.
        set (flush := ((tb <? _) || (tr <? _)) && _). set (big := (tb <? nb c) || (tr <? alen c)). cbv zeta.
        assert (list_sum (map alen cs) <= N) as N3 by (cbn [map] in N2; change (alen c + list_sum (map alen cs) <= N) in N2; lia).
        destruct (IH [] F3 N3 ltac:(cbn; lia) ltac:(cbn; lia)) as [IE IT]. cbn [map app] in IE, IT. change (list_sum []) with 0 in IE, IT.
        assert (big = true -> tb < nb c \/ tr < alen c) as Bt by (unfold big; intros B; apply orb_true_iff in B; destruct B as [B|B]; apply Nat.ltb_lt in B; auto).
        assert (big = false -> nb c <= tb /\ alen c <= tr) as Bf by (unfold big; intros B; apply orb_false_iff in B; destruct B as [B1 B2]; apply Nat.ltb_ge in B1, B2; auto).
        assert (big = true -> forall r, match r with c1 :: _ => tb < list_sum (map nb [c]) + nb c1 \/ tr < list_sum (map alen [c]) + alen c1 | [] => True end) as Bg2.
        { intros B r. destruct r; [exact I|]. destruct (Bt B); [left|right]; cbn; lia. }
        destruct flush eqn:Fl.
        + assert (acc <> []) as G. { unfold flush in Fl. apply andb_true_iff in Fl. destruct Fl as [_ Fl]. destruct acc; [discriminate Fl|discriminate]. }
          assert (tb < list_sum (map nb acc) + nb c \/ tr < list_sum (map alen acc) + alen c) as Ov.
          { unfold flush in Fl. apply andb_true_iff in Fl. destruct Fl as [Fl _]. apply orb_true_iff in Fl. destruct Fl as [Fl|Fl]; apply Nat.ltb_lt in Fl; auto. }
          destruct (combined acc G F1 N1) as [C1 C2].
          assert (nb c + 0 = nb c /\ alen c + 0 = alen c) as [P1 P2] by lia.
          destruct big eqn:Bg.
          * specialize (Bg2 eq_refl). split.
            -- intros xs E. destruct (combine_chunks d acc) as [x| |]; try discriminate E. cbn [bind] in E. destruct (C1 x eq_refl) as (X1 & X2 & X3).
               destruct (rechunk_go nb tb tr d [] 0 0 cs) as [ys| |]; try discriminate E. cbn [bind] in E. injection E as <-. destruct (IE ys eq_refl) as [(gs & Gs & R & Fu) T].
               split; [|constructor; [exact X3|constructor; [exact Dc|exact T]]].
               exists (acc :: [c] :: gs). cbn [concat]. rewrite Gs. split; [reflexivity|]. split; [constructor; [right; auto|]; constructor; [left; auto|exact R]|]. refine (full_cons acc ([c] :: gs) (c :: ys) _ _ eq_refl (full_cons [c] gs ys cs R Gs Fu (Bg2 cs)) Ov). constructor; [left; auto|exact R].
            -- intros T. destruct (C2 T) as [x ->]. destruct (IT T) as [ys ->]. cbn [bind]. eauto.
          * destruct (Bf eq_refl) as [B1 B2].
            destruct (IH [c] F2 N2 ltac:(cbn; lia) ltac:(cbn; lia)) as [JE JT]. cbn [map] in JE, JT. change (list_sum [nb c]) with (nb c + 0) in JE, JT. change (list_sum [alen c]) with (alen c + 0) in JE, JT. rewrite P1, P2 in JE, JT.
            split.
            -- intros xs E. destruct (combine_chunks d acc) as [x| |]; try discriminate E. cbn [bind] in E. destruct (C1 x eq_refl) as (X1 & X2 & X3).
               destruct (rechunk_go nb tb tr d [c] (nb c) (alen c) cs) as [ys| |]; try discriminate E. cbn [bind] in E. injection E as <-. destruct (JE ys eq_refl) as [(gs & Gs & R & Fu) T].
               split; [|constructor; [exact X3|exact T]].
               exists (acc :: gs). cbn [concat]. rewrite Gs. split; [reflexivity|]. split; [constructor; [right; auto|exact R]|]. exact (full_cons acc gs ys (c :: cs) R Gs Fu Ov).
            -- intros T. destruct (C2 T) as [x ->]. destruct (JT T) as [ys ->]. cbn [bind]. eauto.
        + assert (acc = [] \/ (list_sum (map nb acc) + nb c <= tb /\ list_sum (map alen acc) + alen c <= tr)) as Nf.
          { destruct acc as [|a0 acc']; [left; reflexivity|right]. unfold flush in Fl. cbn [length Nat.eqb negb] in Fl. rewrite andb_true_r in Fl. apply orb_false_iff in Fl. destruct Fl as [Q1 Q2]. apply Nat.ltb_ge in Q1, Q2. auto. }
          destruct big eqn:Bg.
          * specialize (Bg2 eq_refl). assert (acc = []) as ->. { destruct Nf as [Nf|[Q1 Q2]]; [exact Nf|]. destruct (Bt eq_refl); lia. }
            cbn [map app]. change (list_sum []) with 0. split.
            -- intros xs E. destruct (rechunk_go nb tb tr d [] 0 0 cs) as [ys| |]; try discriminate E. cbn [bind] in E. injection E as <-. destruct (IE ys eq_refl) as [(gs & Gs & R & Fu) T].
               split; [|constructor; [exact Dc|exact T]]. exists ([c] :: gs). cbn [concat]. rewrite Gs. split; [reflexivity|]. split; [constructor; [left; auto|exact R]|exact (full_cons [c] gs ys cs R Gs Fu (Bg2 cs))].
            -- intros T. destruct (IT T) as [ys ->]. cbn [bind]. eauto.
          * destruct (Bf eq_refl) as [B1 B2].
            assert (list_sum (map nb acc) + nb c <= tb /\ list_sum (map alen acc) + alen c <= tr) as [Q1 Q2] by (destruct Nf as [->|Nf]; [cbn; lia|exact Nf]).
            assert ((acc ++ [c]) ++ cs = acc ++ c :: cs) as A by (rewrite <- app_assoc; reflexivity).
            assert (forall h : array -> nat, list_sum (map h (acc ++ [c])) = list_sum (map h acc) + h c) as S1 by (intros h; rewrite map_app, list_sum_app; cbn; lia).
            specialize (IH (acc ++ [c])). rewrite A, !S1 in IH. exact (IH F HN Q1 Q2).
    Qed.
  End Proofs.

  Lemma sub_chunked f d cs : wf f (AChunked d cs) -> cs <> [] ->
    forall g, g <> [] -> Forall (fun c => wf f c /\ adtype c = d) g -> list_sum (map alen g) <= list_sum (map alen cs) -> wf f (AChunked d g).
  Proof.
    cbn [wf]. rewrite wf_chunks_iff. intros (_ & _ & H1 & H2 & H3 & H4 & H5 & H6) _ g G F L. rewrite wf_chunks_iff. repeat (split; [auto|]); [|exact H6]. intros X. specialize (H5 X). lia.
  Qed.

  (** The new chunks are the old ones regrouped, in order; so the rows stay the same. It fails only where decoding does. *)
Theorem rechunking_regroups :
    forall (f : flags) (d : dtype) (cs : list array), wf f (AChunked d cs) -> fc f = true ->
    (forall r, rechunk_array nb tb tr d cs = Ok r ->
       logical r = logical (AChunked d cs) /\ adtype r = d /\
       exists gs xs, r = AChunked d xs /\ concat gs = cs /\ Forall2 regrouped gs xs /\ full gs) /\
    (fC f = true -> exists r, rechunk_array nb tb tr d cs = Ok r).
  Proof.
    intros f d cs W C. assert (Forall (fun c => wf f c /\ adtype c = d) cs) as F by (cbn [wf] in W; apply wf_chunks_iff, W).
    assert ((forall xs, rechunk nb tb tr d cs = Ok xs -> (exists gs, concat gs = cs /\ Forall2 regrouped gs xs /\ full gs) /\ Forall (fun c => adtype c = d) xs) /\
            (fC f = true -> exists xs, rechunk nb tb tr d cs = Ok xs)) as [H1 H2].
    { destruct cs as [|c0 cs'] eqn:Ec.
      - split; [|cbn; eauto]. intros xs E. cbn in E. injection E as <-. split; [exists []; split; [reflexivity|split; [constructor|exact I]]|constructor].
      - rewrite <- Ec in *. refine (rechunk_go_ok f d (list_sum (map alen cs)) C (sub_chunked f d cs W ltac:(rewrite Ec; discriminate)) cs [] F (le_n _) _ _); cbn; lia. }
    unfold rechunk_array. split.
    - intros r E. destruct (rechunk nb tb tr d cs) as [xs| |]; try discriminate E. cbn [bind] in E. unfold try_chunked in E. destruct (forallb _ xs); [|discriminate E]. injection E as <-.
      destruct (H1 xs eq_refl) as [(gs & <- & R & Fu) _]. split; [|split; [reflexivity|exists gs, xs; auto]]. cbn [logical]. clear -R.
      induction R as [|g c gs xs [[-> _]|(_ & _ & _ & _ & L)] R IH]; [reflexivity| |]; cbn [concat map]; rewrite map_app, concat_app, IH; [cbn; rewrite app_nil_r; reflexivity|rewrite L; reflexivity].
    - intros T. destruct (H2 T) as [xs E]. rewrite E. cbn [bind]. destruct (H1 xs E) as [_ D]. unfold try_chunked. exists (AChunked d xs).
      rewrite (proj2 (forallb_forall _ _)); [reflexivity|]. intros c Hc. apply dtype_eqb_eq. rewrite Forall_forall in D. exact (D c Hc).
  Qed.
End Rechunk.
Print Assumptions rechunking_regroups.

(** Two small chunks are put together, the empty one with them; the fourth is too long; 3 rows are the target. *)
Definition ex_chunks : list array :=
  [APrim I32 [7; 0]%Z (VBits [true; false]); AConst (DPrim I32 true) (VInt 5) 1; APrim I32 [] VAllValid; APrim I32 [1; 2; 3; 4]%Z VAllValid; AConst (DPrim I32 true) VNull 2].
Lemma ex_chunks_wf : wf (Flags false false true true true true false false false false) (AChunked (DPrim I32 true) ex_chunks).
Proof.
  cbn. repeat (first [split|discriminate|reflexivity|intros|constructor|lia|left; reflexivity]); try (repeat constructor; unfold in_range; cbn; lia).
Qed.
Example ex_rechunked :
  rechunk_array alen 100 3 (DPrim I32 true) ex_chunks =
  Ok (AChunked (DPrim I32 true) [APrim I32 [7; 0; 5]%Z (VBits [true; false; true]); APrim I32 [1; 2; 3; 4]%Z VAllValid; APrim I32 [0; 0]%Z VAllInvalid]).
Proof. vm_compute. reflexivity. Qed.
