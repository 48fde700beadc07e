(** C57: a buffer is its bytes, however it is held; a BufferString is a sequence of characters. *)
From Verif Require Import Base Spec CmpSpec Arr Compare Buf.

(** * Specification *)
(** The characters: Unicode scalar values. *)
Definition scalar_value (c : Z) : Prop := (0 <= c < 55296 \/ 57344 <= c <= 1114111)%Z.
(** The bytes of a character: seven bits in one byte, eleven in two, sixteen in three, twenty-one in four. *)
Definition char_bytes (c : Z) : list Z :=
  (if c <? 128 then [c]
   else if c <? 2048 then [192 + c / 64; 128 + c mod 64]
   else if c <? 65536 then [224 + c / 4096; 128 + c / 64 mod 64; 128 + c mod 64]
   else [240 + c / 262144; 128 + c / 4096 mod 64; 128 + c / 64 mod 64; 128 + c mod 64])%Z.
Definition text_bytes (cs : list Z) : list Z := flat_map char_bytes cs.

(** * Characters *)
Lemma div_step c k : (0 < k)%Z -> c = (k * (c / k) + c mod k)%Z /\ (0 <= c mod k < k)%Z.
Proof. intros H. split; [apply Z.div_mod; lia | apply Z.mod_pos_bound; lia]. Qed.
(** What the bytes of a character are, without division. *)
Lemma char_shape c : scalar_value c ->
  (0 <= c < 128 /\ char_bytes c = [c] \/
   (exists q r, char_bytes c = [192 + q; 128 + r] /\ c = 64 * q + r /\ 0 <= r < 64 /\ 2 <= q < 32) \/
   (exists q r s, char_bytes c = [224 + q; 128 + r; 128 + s] /\ c = 4096 * q + 64 * r + s /\
      0 <= r < 64 /\ 0 <= s < 64 /\ 0 <= q < 16 /\ 2048 <= c) \/
   (exists q r s t, char_bytes c = [240 + q; 128 + r; 128 + s; 128 + t] /\ c = 262144 * q + 4096 * r + 64 * s + t /\
      0 <= r < 64 /\ 0 <= s < 64 /\ 0 <= t < 64 /\ 0 <= q < 5 /\ 65536 <= c))%Z.
Proof.
  intros H. unfold char_bytes.
  destruct (Z.ltb_spec c 128); [left; split; [unfold scalar_value in H; lia|reflexivity]|right].
  pose proof (div_step c 64 ltac:(lia)) as [D1 M1]. pose proof (div_step (c / 64) 64 ltac:(lia)) as [D2 M2].
  pose proof (div_step (c / 64 / 64) 64 ltac:(lia)) as [D3 M3].
  assert (E2 : (c / 4096 = c / 64 / 64)%Z) by (rewrite Z.div_div by lia; reflexivity).
  assert (E3 : (c / 262144 = c / 64 / 64 / 64)%Z) by (rewrite !Z.div_div by lia; reflexivity).
  destruct (Z.ltb_spec c 2048).
  { left. exists (c / 64)%Z, (c mod 64)%Z. split; [reflexivity|]. lia. }
  right. destruct (Z.ltb_spec c 65536).
  { left. exists (c / 4096)%Z, (c / 64 mod 64)%Z, (c mod 64)%Z. split; [reflexivity|]. rewrite E2. lia. }
  right. exists (c / 262144)%Z, (c / 4096 mod 64)%Z, (c / 64 mod 64)%Z, (c mod 64)%Z. split; [reflexivity|].
  rewrite E3, E2. unfold scalar_value in H. lia.
Qed.
Lemma char_bytes_of q r s t :
  (0 <= r < 64 -> 0 <= s < 64 -> 0 <= t < 64 -> 0 <= q ->
   (2 <= q < 32 -> char_bytes (64 * q + r) = [192 + q; 128 + r]) /\
   (2048 <= 4096 * q + 64 * r + s < 65536 -> char_bytes (4096 * q + 64 * r + s) = [224 + q; 128 + r; 128 + s]) /\
   (65536 <= 262144 * q + 4096 * r + 64 * s + t -> 
      char_bytes (262144 * q + 4096 * r + 64 * s + t) = [240 + q; 128 + r; 128 + s; 128 + t]))%Z.
Proof.
  intros Hr Hs Ht Hq. unfold char_bytes.
  assert (U : forall a b k, (0 <= b < k)%Z -> ((k * a + b) / k = a /\ (k * a + b) mod k = b)%Z).
  { intros a b k Hb. split; [symmetry; apply (Z.div_unique _ _ _ b); lia | symmetry; apply (Z.mod_unique _ _ a b); lia]. }
  split; [|split]; intros H.
  - destruct (Z.ltb_spec (64 * q + r) 128); [lia|]. destruct (Z.ltb_spec (64 * q + r) 2048); [|lia].
    destruct (U q r 64%Z) as [-> ->]; auto.
  - destruct (Z.ltb_spec (4096 * q + 64 * r + s) 128); [lia|]. destruct (Z.ltb_spec (4096 * q + 64 * r + s) 2048); [lia|].
    destruct (Z.ltb_spec (4096 * q + 64 * r + s) 65536); [|lia].
    assert (E : (4096 * q + 64 * r + s = 64 * (64 * q + r) + s)%Z) by lia. 
    assert (E4 : ((4096 * q + 64 * r + s) / 4096 = q)%Z) by (symmetry; apply (Z.div_unique _ _ _ (64 * r + s)); lia).
    rewrite E4, E. destruct (U (64 * q + r)%Z s 64%Z) as [-> ->]; auto. destruct (U q r 64%Z) as [_ ->]; auto.
  - set (c := (262144 * q + 4096 * r + 64 * s + t)%Z) in *.
    destruct (Z.ltb_spec c 128); [lia|]. destruct (Z.ltb_spec c 2048); [lia|]. destruct (Z.ltb_spec c 65536); [lia|].
    assert (E : c = (64 * (64 * (64 * q + r) + s) + t)%Z) by lia.
    assert (E4 : (c / 262144 = q)%Z) by (symmetry; apply (Z.div_unique _ _ _ (4096 * r + 64 * s + t)); lia).
    assert (E5 : (c / 4096 = 64 * q + r)%Z) by (symmetry; apply (Z.div_unique _ _ _ (64 * s + t)); lia).
    rewrite E4, E5, E. destruct (U (64 * (64 * q + r) + s)%Z t 64%Z) as [-> ->]; auto.
    destruct (U (64 * q + r)%Z s 64%Z) as [_ ->]; auto. destruct (U q r 64%Z) as [_ ->]; auto.
Qed.

Ltac zb := match goal with
  | |- context [ (?a <=? ?b)%Z ] => destruct (Z.leb_spec a b); try (exfalso; lia); cbn [andb]; try reflexivity; zb
  | |- context [ (?a =? ?b)%Z ] => destruct (Z.eqb_spec a b); try (exfalso; lia); cbn [andb]; try reflexivity; zb
  | _ => idtac
  end.
Lemma valid_char c l : scalar_value c -> utf8_valid (char_bytes c ++ l) = utf8_valid l.
Proof.
  intros H. destruct (char_shape c H) as [[R ->]|[(q & r & -> & E & R)|[(q & r & s & -> & E & R)|(q & r & s & t & -> & E & R)]]];
    unfold scalar_value in H; cbn [app utf8_valid]; unfold cont.
  - zb.
  - destruct (Z.leb_spec 0 (192 + q)); [|lia]. destruct (Z.leb_spec (192 + q) 127); [lia|]. cbn [andb]. zb.
  - destruct (Z.leb_spec 0 (224 + q)); [|lia]. destruct (Z.leb_spec (224 + q) 127); [lia|]. cbn [andb].
    destruct (Z.leb_spec (224 + q) 223); [lia|]. rewrite andb_false_r. zb.
  - destruct (Z.leb_spec 0 (240 + q)); [|lia]. destruct (Z.leb_spec (240 + q) 127); [lia|]. cbn [andb].
    destruct (Z.leb_spec (240 + q) 223); [lia|]. destruct (Z.leb_spec (240 + q) 239); [lia|]. rewrite !andb_false_r. zb.
Qed.
Ltac ab H := repeat match type of H with (_ && _)%bool = true => let H' := fresh H in apply andb_prop in H; destruct H as [H H'] end.
Lemma valid_first a l : utf8_valid (a :: l) = true ->
  exists c r, scalar_value c /\ a :: l = char_bytes c ++ r /\ utf8_valid r = true.
Proof.
  unfold scalar_value. intros H. cbn [utf8_valid] in H. unfold cont in H.
  destruct (((0 <=? a) && (a <=? 127))%Z)%bool eqn:E1.
  { exists a, l. split; [lia|]. split; [|auto]. unfold char_bytes. destruct (Z.ltb_spec a 128); [reflexivity|lia]. }
  destruct l as [|b r2]; [discriminate|].
  destruct (((194 <=? a) && (a <=? 223))%Z)%bool eqn:E2.
  { apply andb_prop in H. destruct H as [Hb Hr].
    pose proof (char_bytes_of (a - 192) (b - 128) 0 0 ltac:(lia) ltac:(lia) ltac:(lia) ltac:(lia)) as [F _].
    specialize (F ltac:(lia)). eexists; exists r2. rewrite F. split; [lia|]. split; [|auto]. cbn [app]. repeat f_equal; lia. }
  destruct r2 as [|c r3]; [discriminate|].
  destruct (((224 <=? a) && (a <=? 239))%Z)%bool eqn:E3.
  { apply andb_prop in H. destruct H as [H Hr]. apply andb_prop in H. destruct H as [H Hx].
    assert (Hy : (a = 224 -> 160 <= b)%Z /\ (a = 237 -> b <= 159)%Z).
    { destruct (Z.eqb_spec a 224); [lia|]. destruct (Z.eqb_spec a 237); lia. }
    pose proof (char_bytes_of (a - 224) (b - 128) (c - 128) 0 ltac:(lia) ltac:(lia) ltac:(lia) ltac:(lia)) as [_ [F _]].
    specialize (F ltac:(lia)). eexists; exists r3. rewrite F. split; [lia|]. split; [|auto]. cbn [app]. repeat f_equal; lia. }
  destruct r3 as [|d r4]; [discriminate|].
  apply andb_prop in H. destruct H as [H Hr]. apply andb_prop in H. destruct H as [H Hx].
  assert (Hy : (a = 240 -> 144 <= b)%Z /\ (a = 244 -> b <= 143)%Z).
  { destruct (Z.eqb_spec a 240); [lia|]. destruct (Z.eqb_spec a 244); lia. }
  pose proof (char_bytes_of (a - 240) (b - 128) (c - 128) (d - 128) ltac:(lia) ltac:(lia) ltac:(lia) ltac:(lia)) as [_ [_ F]].
  specialize (F ltac:(lia)). eexists; exists r4. rewrite F. split; [lia|]. split; [|auto]. cbn [app]. repeat f_equal; lia.
Qed.
Lemma char_nonempty c : char_bytes c <> [].
Proof. unfold char_bytes. repeat match goal with |- context [ (?a <? ?b)%Z ] => destruct (a <? b)%Z end; discriminate. Qed.

(** The check on bytes accepts exactly the encodings of texts. *)
Lemma valid_text_ n : forall l, length l <= n -> utf8_valid l = true -> exists cs, Forall scalar_value cs /\ l = text_bytes cs.
Proof.
  induction n as [|n IH]; intros [|a l] Hn H; cbn [length] in Hn; try lia.
  - exists []. split; [constructor|reflexivity].
  - exists []. split; [constructor|reflexivity].
  - destruct (valid_first a l H) as (c & r & Hc & E & Hr).
    assert (L : length r <= n).
    { assert (length (a :: l) = length (char_bytes c) + length r) as L by (rewrite E, app_length; reflexivity).
      pose proof (char_nonempty c). destruct (char_bytes c); [congruence|]. cbn [length] in L. lia. }
    destruct (IH r L Hr) as (cs & F & ->). exists (c :: cs). split; [constructor; auto|]. exact E.
Qed.
Theorem valid_iff_text l : utf8_valid l = true <-> exists cs, Forall scalar_value cs /\ l = text_bytes cs.
Proof.
  split; [apply (valid_text_ (length l)); auto|]. intros (cs & F & ->). induction F as [|c cs Hc F IH]; [reflexivity|].
  cbn [text_bytes flat_map]. rewrite (valid_char c); auto.
Qed.

(** * Order *)
Lemma lex_cons x y a b : lex (x :: a) (y :: b) = match (x ?= y)%Z with Eq => lex a b | c => c end.
Proof. reflexivity. Qed.
Lemma lex_char c d x y : scalar_value c -> scalar_value d ->
  lex (char_bytes c ++ x) (char_bytes d ++ y) = match (c ?= d)%Z with Eq => lex x y | o => o end.
Proof.
  intros Hc Hd.
  destruct (char_shape c Hc) as [[R ->]|[(q & r & -> & E & R)|[(q & r & s & -> & E & R)|(q & r & s & t & -> & E & R)]]];
  destruct (char_shape d Hd) as [[R' ->]|[(q' & r' & -> & E' & R')|[(q' & r' & s' & -> & E' & R')|(q' & r' & s' & t' & -> & E' & R')]]];
  cbn [app]; rewrite ?lex_cons;
  destruct (Z.compare_spec c d); try reflexivity; try (exfalso; lia);
  repeat (match goal with |- context [ match (?a ?= ?b)%Z with _ => _ end ] => destruct (Z.compare_spec a b) end;
          try reflexivity; try (exfalso; lia)).
Qed.
(** Bytes of texts are in the order of the texts, character by character. *)
Theorem text_order cs ds : Forall scalar_value cs -> Forall scalar_value ds -> lex (text_bytes cs) (text_bytes ds) = lex cs ds.
Proof.
  intros F. revert ds. induction F as [|c cs Hc F IH]; intros ds G.
  - destruct ds as [|d ds]; [reflexivity|]. cbn [text_bytes flat_map lex]. pose proof (char_nonempty d).
    destruct (char_bytes d); [congruence|reflexivity].
  - destruct G as [|d ds Hd G].
    + cbn [text_bytes flat_map lex]. pose proof (char_nonempty c). destruct (char_bytes c); [congruence|reflexivity].
    + cbn [text_bytes flat_map]. rewrite lex_char by auto. rewrite lex_cons. destruct (c ?= d)%Z; auto.
Qed.
Lemma lex_eq a : forall b, lex a b = Eq <-> a = b.
Proof.
  induction a as [|x a IH]; intros [|y b]; cbn [lex]; split; try congruence; intros H.
  - destruct (Z.compare_spec x y); try discriminate. apply IH in H. congruence.
  - injection H as -> ->. rewrite Z.compare_refl. apply IH. reflexivity.
Qed.
Theorem text_unique cs ds : Forall scalar_value cs -> Forall scalar_value ds -> text_bytes cs = text_bytes ds -> cs = ds.
Proof. intros F G E. apply lex_eq. rewrite <- (text_order cs ds F G). apply lex_eq. exact E. Qed.

(** A BufferString is made of exactly the buffers that hold a text, without changing it, and one text only. *)
Theorem strings_are_texts b :
  (forall s, string_try_from b = Ok s -> exists cs, Forall scalar_value cs /\ as_str s = text_bytes cs /\ contents b = text_bytes cs /\
     forall ds, Forall scalar_value ds -> contents b = text_bytes ds -> ds = cs) /\
  (forall cs, Forall scalar_value cs -> contents b = text_bytes cs -> exists s, string_try_from b = Ok s /\ as_str s = text_bytes cs) /\
  string_try_from b <> Panic.
Proof.
  unfold string_try_from, as_str. split; [|split].
  - intros s H. destruct (utf8_valid (contents b)) eqn:V; inversion H; subst s.
    destruct (proj1 (valid_iff_text _) V) as (cs & F & E). exists cs. repeat split; auto.
    intros ds G E'. apply text_unique; auto. congruence.
  - intros cs F E. assert (V : utf8_valid (contents b) = true) by (apply valid_iff_text; eauto). rewrite V. eauto.
  - destruct (utf8_valid (contents b)); discriminate.
Qed.
(** Strings are ordered, and equal, as texts. *)
Theorem strings_order_as_texts a b cs ds : Forall scalar_value cs -> Forall scalar_value ds ->
  as_str a = text_bytes cs -> as_str b = text_bytes ds ->
  buf_cmp a b = lex cs ds /\ (buf_eq a b = true <-> cs = ds).
Proof.
  unfold as_str, buf_cmp, buf_eq. intros F G -> ->. split; [apply text_order; auto|].
  destruct (list_eq_dec Z.eq_dec (text_bytes cs) (text_bytes ds)) as [E|E]; split; intros H; try congruence.
  apply text_unique; auto.
Qed.

(** So are string scalars (derived PartialOrd and PartialEq of ScalarValue), whatever arrays they come from. *)
Theorem string_scalars_order_as_texts n cs ds : Forall scalar_value cs -> Forall scalar_value ds ->
  sv_cmp (DUtf8 n) (VBytes (text_bytes cs)) (VBytes (text_bytes ds)) = Some (lex cs ds) /\
  value_cmp (DUtf8 n) (VBytes (text_bytes cs)) (VBytes (text_bytes ds)) = Some (lex cs ds) /\
  (sv_eq (DUtf8 n) (VBytes (text_bytes cs)) (VBytes (text_bytes ds)) = true <-> cs = ds).
Proof.
  intros F G. pose proof (text_order cs ds F G) as E. split; [|split].
  - cbn [sv_cmp]. rewrite E. reflexivity.
  - cbn [value_cmp]. rewrite E. reflexivity.
  - cbn [sv_eq]. destruct (list_eq_dec Z.eq_dec (text_bytes cs) (text_bytes ds)) as [T|T]; split; intros H; try congruence.
    apply text_unique; auto.
Qed.

(** * Buffers *)
(** What a buffer is made of is read back, by every way of reading it. *)
Theorem buffer_holds_its_bytes :
  (forall l, contents (buf_of_slice l) = l /\ contents (buf_of_bytes l) = l) /\
  (forall n, contents (from_len_zeroed n) = repeat 0%Z n) /\
  (forall b, buf_len b = length (contents b) /\ (buf_is_empty b = true <-> contents b = []) /\ into_arrow b = contents b).
Proof.
  split; [auto|]. split; [reflexivity|]. intros [l|l]; cbn [buf_len buf_is_empty contents into_arrow];
    (split; [reflexivity|]; split; [|reflexivity]); destruct l; cbn; split; congruence.
Qed.
(** Equality and order are those of the bytes: no matter how each is held. *)
Theorem buffers_compare_by_bytes a b :
  (buf_eq a b = true <-> contents a = contents b) /\ (buf_cmp a b = Eq <-> buf_eq a b = true) /\ buf_cmp b a = CompOpp (buf_cmp a b).
Proof.
  assert (L : forall x y, lex y x = CompOpp (lex x y)).
  { induction x as [|u x IH]; intros [|w y]; cbn [lex]; auto. rewrite (Z.compare_antisym u w). destruct (u ?= w)%Z; cbn; auto. }
  unfold buf_eq, buf_cmp. destruct (list_eq_dec Z.eq_dec (contents a) (contents b)) as [E|E]; repeat split; intros; try congruence; auto.
  - apply lex_eq; auto.
  - exfalso. apply E, lex_eq; auto.
Qed.
(** A slice within the buffer is the bytes of the range, however the buffer is held. *)
Theorem slice_is_the_range b s e : s <= e <= buf_len b ->
  exists r, buf_slice b s e = Ok r /\ buf_len r = e - s /\ (forall i, i < e - s -> nth i (contents r) 0%Z = nth (s + i) (contents b) 0%Z).
Proof.
  intros H. assert (R : exists r, buf_slice b s e = Ok r /\ contents r = lslice (contents b) s e).
  { destruct b as [l|l]; cbn [buf_slice buf_len contents] in *.
    - destruct (Nat.ltb_spec e s); [lia|]. destruct (Nat.leb_spec (s + (e - s)) (length l)); [|lia]. eauto.
    - destruct (Nat.leb_spec e s).
      + eexists; split; [reflexivity|]. cbn [contents firstn]. symmetry. apply lslice_nil. lia.
      + destruct (Nat.leb_spec e (length l)); [|lia]. eauto. }
  destruct R as (r & E & C). exists r. split; [exact E|].
  assert (B : forall x, buf_len x = length (contents x)) by (intros []; reflexivity).
  split; [rewrite B, C; apply lslice_length; rewrite <- B; lia|]. intros i Hi. rewrite C. apply nth_lslice; auto.
Qed.
Lemma slice_contents b s e r : buf_slice b s e = Ok r -> contents r = lslice (contents b) s e.
Proof.
  destruct b as [l|l]; cbn [buf_slice contents].
  - destruct (e <? s); [discriminate|]. destruct (s + (e - s) <=? length l); [|discriminate]. intros H; inversion H; reflexivity.
  - destruct (Nat.leb_spec e s); [intros E; inversion E; cbn; symmetry; apply lslice_nil; lia|].
    destruct (e <=? length l); [|discriminate]. intros E; inversion E; reflexivity.
Qed.
(** A slice of a slice is a slice. *)
Theorem slice_of_slice b s e r i j r' : s <= e <= buf_len b -> i <= j <= e - s ->
  buf_slice b s e = Ok r -> buf_slice r i j = Ok r' -> exists q, buf_slice b (s + i) (s + j) = Ok q /\ contents q = contents r'.
Proof.
  intros H H' E E'. destruct (slice_is_the_range b (s + i) (s + j) ltac:(lia)) as (q & Eq' & _). exists q. split; [exact Eq'|].
  rewrite (slice_contents _ _ _ _ Eq'), (slice_contents _ _ _ _ E'), (slice_contents _ _ _ _ E). 
  symmetry. apply lslice_lslice; lia.
Qed.
(** Outside the buffer an Arrow buffer always panics; a Bytes buffer does unless the range is empty or reversed. *)
Theorem slice_out_of_range b s e : ~ s <= e <= buf_len b ->
  buf_slice b s e = Panic \/ exists l, b = BBytes l /\ e <= s /\ buf_slice b s e = Ok (BBytes []).
Proof.
  intros H. destruct b as [l|l]; cbn [buf_slice buf_len] in *.
  - left. destruct (Nat.ltb_spec e s); [reflexivity|]. destruct (Nat.leb_spec (s + (e - s)) (length l)); [lia|reflexivity].
  - destruct (Nat.leb_spec e s); [right; eauto|]. left. destruct (Nat.leb_spec e (length l)); [lia|reflexivity].
Qed.
(** Equal buffers need not have the same slices: at an empty range past the end, or a reversed one, it matters how they are held. *)
Theorem slices_of_equal_buffers_refuted :
  exists a b, buf_eq a b = true /\ buf_slice a 7 7 = Panic /\ buf_slice b 7 7 = Ok (BBytes []) /\
    buf_slice a 2 1 = Panic /\ buf_slice b 2 1 = Ok (BBytes []).
Proof. exists (BArrow [1; 2; 3]%Z), (BBytes [1; 2; 3]%Z). repeat split. Qed.

(** The slices flexbuffers reads by never panic: a non-empty range within the buffer gives its bytes, any other is refused. *)
Theorem flex_slices b s e :
  (s < e <= buf_len b -> exists r, flex_slice b s e = Ok (Some r) /\ contents r = lslice (contents b) s e) /\
  (~ s < e <= buf_len b -> flex_slice b s e = Ok None).
Proof.
  unfold flex_slice. split; intros H.
  - destruct (Nat.ltb_spec (buf_len b) e); [lia|]. destruct (Nat.leb_spec (buf_len b) s); [lia|]. destruct (Nat.leb_spec e s); [lia|].
    cbn [orb]. destruct (slice_is_the_range b s e ltac:(lia)) as (r & E & _). rewrite E. cbn. exists r. split; auto.
    apply (slice_contents _ _ _ _ E).
  - destruct (Nat.ltb_spec (buf_len b) e); [reflexivity|]. destruct (Nat.leb_spec (buf_len b) s); [rewrite orb_true_r; reflexivity|].
    destruct (Nat.leb_spec e s); [rewrite orb_true_r; reflexivity|lia].
Qed.
(** Taking the vector out gives the bytes, up to a trailing part of an element, or the buffer back; a Bytes buffer is always given back. *)
Theorem into_vec_loses_nothing w reusable b :
  match into_vec w reusable b with
  | inl v => exists rest, contents b = v ++ rest /\ (0 < w -> length rest < w /\ Nat.modulo (length v) w = 0) /\
               (forall n, buf_len b = n * w -> 0 < w -> v = contents b)
  | inr b' => b' = b
  end /\ (forall l, b = BBytes l -> into_vec w reusable b = inr b).
Proof.
  split; [|intros l ->; reflexivity]. destruct b as [l|l]; cbn [into_vec]; [|reflexivity]. destruct reusable; [|reflexivity].
  exists (skipn (length l / w * w) l). cbn [contents buf_len]. split; [symmetry; apply firstn_skipn|].
  assert (D : 0 < w -> length l = w * (length l / w) + length l mod w /\ length l mod w < w).
  { intros Hw. split; [apply Nat.div_mod; lia | apply Nat.mod_upper_bound; lia]. }
  split.
  - intros Hw. destruct (D Hw). rewrite skipn_length. split; [lia|]. rewrite firstn_length_le by lia. apply Nat.mod_mul. lia.
  - intros n E Hw. rewrite E, Nat.div_mul by lia. rewrite <- E. apply firstn_all.
Qed.

(** * I/O buffers *)
(** The bytes a (slice of a) buffer is, when every range lies within what it is a range of. *)
Fixpoint io_bytes (l : list Z) (b : iobuf) : option (list Z) :=
  match b with
  | IoWhole => Some l
  | IoSlice b s e =>
      match io_bytes l b with
      | Some v => if (s <=? e) && (e <=? length v) then Some (firstn (e - s) (skipn s v)) else None
      | None => None
      end
  end.
Lemma io_at m b : forall v, io_bytes (content m) b = Some v ->
  bytes_init m b = Ok (length v) /\ exists pre post, cells m = pre ++ v ++ post /\ read_ptr m b = length pre.
Proof.
  induction b as [|b IH s e]; intros v H; cbn [io_bytes bytes_init read_ptr] in *.
  - inversion H; subst. split; [reflexivity|]. exists (before m), (after m). split; reflexivity.
  - destruct (io_bytes (content m) b) as [w|]; [|discriminate]. destruct (IH w eq_refl) as (_ & pre & post & E & P). clear IH.
    destruct (Nat.leb_spec s e) as [S|]; [|discriminate]. destruct (Nat.leb_spec e (length w)) as [L|]; [|discriminate]. cbn [andb] in H.
    inversion H; subst v; clear H. assert (N : length (firstn (e - s) (skipn s w)) = e - s) by (rewrite firstn_length_le; auto; rewrite skipn_length; lia).
    rewrite N. split; [destruct (Nat.ltb_spec e s); [lia|reflexivity]|].
    exists (pre ++ firstn s w), (skipn (e - s) (skipn s w) ++ post). split.
    + rewrite E, <- !app_assoc. f_equal. rewrite !app_assoc. f_equal. rewrite <- app_assoc, firstn_skipn, firstn_skipn. reflexivity.
    + rewrite P, app_length, firstn_length_le by lia. reflexivity.
Qed.
Theorem io_slices_are_the_range m b v : io_bytes (content m) b = Some v ->
  bytes_init m b = Ok (length v) /\ io_as_slice m b = Ok v /\ (forall s e, into_inner (slice_owned b s e) = b).
Proof.
  intros H. destruct (io_at m b v H) as (N & pre & post & E & P). split; [exact N|]. split; [|reflexivity].
  unfold io_as_slice. rewrite N. cbn [bind]. rewrite E, P, skipn_app, skipn_all, Nat.sub_diag. cbn [skipn app].
  rewrite firstn_app, firstn_all, Nat.sub_diag. cbn [firstn]. rewrite app_nil_r. reflexivity.
Qed.
(** slice_owned and as_slice are safe functions, but a range past the end is not refused: it reads the memory that follows the buffer. *)
Theorem io_slice_in_bounds_refuted : exists m m' s e v v',
  content m = content m' /\ buf_slice (BBytes (content m)) s e = Panic /\
  io_as_slice m (slice_owned IoWhole s e) = Ok v /\ io_as_slice m' (slice_owned IoWhole s e) = Ok v' /\ v <> v'.
Proof.
  exists {| before := []; content := [1; 2]%Z; after := [7]%Z |}, {| before := []; content := [1; 2]%Z; after := [8]%Z |}, 1, 3.
  exists [2; 7]%Z, [2; 8]%Z. repeat split; discriminate.
Qed.

(** * Cases *)
(** "aé€😀" is a text of ten bytes; bytes that overlong-encode or encode a surrogate are not. *)
Example strings_case :
  string_try_from (BBytes [97; 195; 169; 226; 130; 172; 240; 159; 152; 128]%Z) = Ok (BBytes (text_bytes [97; 233; 8364; 128512]%Z)) /\
  Forall scalar_value [97; 233; 8364; 128512]%Z /\
  string_try_from (BArrow [192; 128]%Z) = Err /\ string_try_from (BArrow [237; 160; 128]%Z) = Err.
Proof. repeat split; try reflexivity. unfold scalar_value. repeat constructor; lia. Qed.
Example io_case : io_bytes [1; 2; 3; 4; 5]%Z (slice_owned (slice_owned IoWhole 1 5) 1 3) = Some [3; 4]%Z.
Proof. reflexivity. Qed.

Print Assumptions strings_are_texts.
Print Assumptions strings_order_as_texts.
Print Assumptions string_scalars_order_as_texts.
Print Assumptions buffer_holds_its_bytes.
Print Assumptions buffers_compare_by_bytes.
Print Assumptions slice_is_the_range.
Print Assumptions slice_of_slice.
Print Assumptions slice_out_of_range.
Print Assumptions slices_of_equal_buffers_refuted.
Print Assumptions flex_slices.
Print Assumptions into_vec_loses_nothing.
Print Assumptions io_slices_are_the_range.
Print Assumptions io_slice_in_bounds_refuted.
