(** Correctness of the generic binary search. *)
From Verif Require Import Base Spec SearchModel.

(** [find] on [from,to): positions below [hi] are not [Gt], the others are. *)
Lemma bs_loop_spec find hi from to fuel size base :
  size < fuel -> 1 <= size -> from <= base -> base + size <= to ->
  (forall i, from <= i < to -> (find i = Gt <-> hi <= i)) ->
  hi <= base + size -> (base < hi \/ base = from) ->
  exists b, bs_loop find fuel size base = Some b /\ from <= b < to /\
            hi <= b + 1 /\ (b < hi \/ b = from).
Proof.
  intros Hf Hs Hfr Ht Hfind.
  revert size base Hf Hs Hfr Ht.
  induction fuel as [|fuel IH]; intros size base Hf Hs Hfr Ht Hhi Hb; [lia|].
  cbn [bs_loop]. destruct (Nat.leb_spec size 1) as [H1|H1].
  - exists base. split; [reflexivity|]. lia.
  - assert (Hhalf : 1 <= size / 2 /\ size / 2 <= size - 1 /\ 2 * (size / 2) <= size) by lia.
    destruct (Hfind (base + size / 2)) as [Hg1 Hg2]; [lia|].
    destruct (find (base + size / 2)) eqn:E.
    + assert (base + size / 2 < hi) by (destruct (Nat.le_gt_cases hi (base + size / 2)) as [Hc|Hc]; [discriminate (Hg2 Hc)|lia]).
      apply IH; try lia.
    + assert (base + size / 2 < hi) by (destruct (Nat.le_gt_cases hi (base + size / 2)) as [Hc|Hc]; [discriminate (Hg2 Hc)|lia]).
      apply IH; try lia.
    + specialize (Hg1 eq_refl). apply IH; try lia.
Qed.

Lemma side_idx_spec find lo hi from to :
  from < to -> lo <= hi -> hi <= to ->
  (forall i, from <= i < to ->
     find i = if i <? lo then Lt else if i <? hi then Eq else Gt) ->
  search_sorted_side_idx find from to =
    Ok (if Nat.max lo from <? hi then Found (hi - 1) else NotFound (Nat.max lo from)).
Proof.
  intros Hft Hlh Hht Hfind. unfold search_sorted_side_idx.
  destruct (Nat.ltb_spec to from); [lia|].
  destruct (Nat.eqb_spec (to - from) 0); [lia|].
  destruct (bs_loop_spec find hi from to (S (to - from)) (to - from) from) as (b & Hb & Hr & H1 & H2);
    try lia.
  { intros i Hi. rewrite Hfind by exact Hi.
    destruct (Nat.ltb_spec i lo); [split; [discriminate|lia]|].
    destruct (Nat.ltb_spec i hi); [split; [discriminate|lia]|]. split; [lia|reflexivity]. }
  rewrite Hb. rewrite (Hfind b) by lia.
  destruct (Nat.ltb_spec b lo).
  - destruct (Nat.ltb_spec (Nat.max lo from) hi); [exfalso; lia|]. f_equal; f_equal; lia.
  - destruct (Nat.ltb_spec b hi).
    + destruct (Nat.ltb_spec (Nat.max lo from) hi); [|exfalso; lia]. f_equal; f_equal; lia.
    + destruct (Nat.ltb_spec (Nat.max lo from) hi); [exfalso; lia|]. f_equal; f_equal; lia.
Qed.

(** The whole search, given block structure. *)
Lemma search_sorted_gen_blocks icmp lo hi len s :
  lo <= hi -> hi <= len ->
  (forall i, i < len -> icmp i = Some (if i <? lo then Lt else if i <? hi then Eq else Gt)) ->
  search_sorted_gen icmp s len =
    Ok (if lo <? hi then Found (match s with Left => lo | Right => hi end) else NotFound lo).
Proof.
  intros Hlh Hhl Hic. unfold search_sorted_gen, search_sorted_by.
  destruct (Nat.eq_dec len 0) as [->|Hlen].
  - destruct (Nat.ltb_spec lo hi); [lia|]. change (Ok (NotFound 0) = Ok (NotFound lo)). f_equal; f_equal; lia.
  - rewrite (side_idx_spec _ lo hi 0 len); try lia.
    2: { intros i Hi. rewrite Hic by lia. reflexivity. }
    rewrite Nat.max_0_r.
    destruct (Nat.ltb_spec lo hi) as [H|H]; cbn [bind].
    + destruct s.
      * destruct (Nat.eq_dec (hi - 1) 0) as [E|E].
        -- rewrite E. cbn. f_equal; f_equal; lia.
        -- rewrite (side_idx_spec _ lo lo 0 (hi - 1)); try lia.
           ++ destruct (Nat.ltb_spec (Nat.max lo 0) lo); [lia|]. cbn. f_equal; f_equal; lia.
           ++ intros i Hi. rewrite Hic by lia.
              destruct (Nat.ltb_spec i lo); [reflexivity|].
              destruct (Nat.ltb_spec i hi); reflexivity.
      * rewrite (side_idx_spec _ hi hi (hi - 1) len); try lia.
        -- destruct (Nat.ltb_spec (Nat.max hi (hi - 1)) hi); [lia|]. cbn. f_equal; f_equal; lia.
        -- intros i Hi. rewrite Hic by lia.
           destruct (Nat.ltb_spec i lo); destruct (Nat.ltb_spec i hi); try lia; reflexivity.
    + reflexivity.
Qed.

Lemma count_app {A} (f : A -> bool) l1 l2 : count f (l1 ++ l2) = count f l1 + count f l2.
Proof. unfold count. rewrite filter_app, app_length. reflexivity. Qed.
Lemma count_repeat_true {A} (f : A -> bool) x n : f x = true -> count f (repeat x n) = n.
Proof. intros H. unfold count. induction n; cbn; [reflexivity|]. rewrite H; cbn; lia. Qed.
Lemma count_repeat_false {A} (f : A -> bool) x n : f x = false -> count f (repeat x n) = 0.
Proof. intros H. unfold count. induction n; cbn; [reflexivity|]. rewrite H; cbn; lia. Qed.

Lemma spec_search_blocks a b c s :
  spec_search (repeat Lt a ++ repeat Eq b ++ repeat Gt c) s =
  if a <? a + b then Found (match s with Left => a | Right => a + b end) else NotFound a.
Proof.
  unfold spec_search. rewrite !count_app.
  set (isl := fun c => match c with Lt => true | _ => false end).
  set (ise := fun c => match c with Eq => true | _ => false end).
  rewrite (count_repeat_true isl Lt), (count_repeat_false isl Eq), (count_repeat_false isl Gt),
     (count_repeat_false ise Lt), (count_repeat_true ise Eq), (count_repeat_false ise Gt) by reflexivity.
  destruct (Nat.eqb_spec (0 + (b + 0)) 0); destruct (Nat.ltb_spec a (a + b)); try lia.
  - f_equal; lia.
  - destruct s; f_equal; lia.
Qed.

Lemma nth_blocks a b c i :
  i < a + b + c ->
  nth i (repeat Lt a ++ repeat Eq b ++ repeat Gt c) Lt =
  if i <? a then Lt else if i <? a + b then Eq else Gt.
Proof.
  intros Hi.
  destruct (Nat.ltb_spec i a).
  - rewrite app_nth1 by (rewrite repeat_length; lia). apply nth_repeat.
  - rewrite app_nth2 by (rewrite repeat_length; lia). rewrite repeat_length.
    destruct (Nat.ltb_spec i (a + b)).
    + rewrite app_nth1 by (rewrite repeat_length; lia).
      rewrite nth_indep with (d' := Eq) by (rewrite repeat_length; lia). apply nth_repeat.
    + rewrite app_nth2 by (rewrite repeat_length; lia). rewrite repeat_length.
      rewrite nth_indep with (d' := Gt) by (rewrite repeat_length; lia). apply nth_repeat.
Qed.

(** Main lemma: on a sorted list of comparisons the generic search returns the specified result
    (and never panics, in particular never reaches the [unreachable!]). *)
Lemma search_sorted_gen_correct (cs : list comparison) icmp s :
  sorted_cmps cs ->
  (forall i, i < length cs -> icmp i = Some (nth i cs Lt)) ->
  search_sorted_gen icmp s (length cs) = Ok (spec_search cs s).
Proof.
  intros (a & b & c & ->) Hic.
  rewrite !app_length, !repeat_length in *.
  rewrite spec_search_blocks.
  rewrite (search_sorted_gen_blocks _ a (a + b)); try lia; [reflexivity|].
  intros i Hi. rewrite Hic by lia. f_equal. apply nth_blocks. lia.
Qed.

(** Sorted integers give sorted comparisons. *)
Lemma sortedZ_cmps l v : sortedZ l -> sorted_cmps (map (fun x => Z.compare x v) l).
Proof.
  induction l as [|x r IH]; cbn [map sortedZ]; intros H; [exists 0, 0, 0; reflexivity|].
  destruct H as [Hx Hr]. destruct (IH Hr) as (a & b & c & E). rewrite E.
  assert (Hall : forall k, In k (repeat Lt a ++ repeat Eq b ++ repeat Gt c) ->
                 exists y, In y r /\ Z.compare y v = k).
  { intros k Hk. rewrite <- E in Hk. apply in_map_iff in Hk. destruct Hk as (y & Hy & Hin). eauto. }
  destruct (Z.compare_spec x v) as [Hc|Hc|Hc].
  - assert (a = 0).
    { destruct a; [reflexivity|]. destruct (Hall Lt) as (y & Hy & Hk); [cbn; auto|].
      change (y < v)%Z in Hk. specialize (Hx _ Hy). lia. }
    subst a. exists 0, (S b), c. reflexivity.
  - exists (S a), b, c. reflexivity.
  - assert (a = 0).
    { destruct a; [reflexivity|]. destruct (Hall Lt) as (y & Hy & Hk); [cbn; auto|].
      change (y < v)%Z in Hk. specialize (Hx _ Hy). lia. }
    assert (b = 0).
    { destruct b; [reflexivity|]. destruct (Hall Eq) as (y & Hy & Hk).
      { apply in_or_app; right. apply in_or_app; left. cbn; auto. }
      apply Z.compare_eq_iff in Hk. specialize (Hx _ Hy). lia. }
    subst a b. exists 0, 0, (S c). reflexivity.
Qed.

Lemma sorted_nl_cmps l v : sorted_nl l -> sorted_cmps (map (fun x => cmp_null_last x v) l).
Proof.
  intros (vs & n & -> & Hs). destruct (sortedZ_cmps vs v Hs) as (a & b & c & E).
  rewrite map_app, map_map. cbn [cmp_null_last]. rewrite E.
  exists a, b, (c + n). rewrite repeat_app, <- !app_assoc. do 3 f_equal.
  induction n; cbn; [reflexivity|]. f_equal; assumption.
Qed.

Lemma search_sorted_list_correct l v s :
  sortedZ l ->
  search_sorted_list l v s = Ok (spec_search (map (fun x => Z.compare x v) l) s).
Proof.
  intros H. unfold search_sorted_list.
  rewrite <- (map_length (fun x => Z.compare x v) l).
  apply search_sorted_gen_correct; [apply sortedZ_cmps, H|].
  intros i Hi. rewrite map_length in Hi. f_equal. symmetry.
  apply (map_nth_lt (fun x => Z.compare x v)). exact Hi.
Qed.

(** Facts about the specification itself, used by clients. *)
Lemma spec_search_left_index cs :
  to_index (spec_search cs Left) = count (fun c => match c with Lt => true | _ => false end) cs.
Proof. unfold spec_search. destruct (_ =? 0); reflexivity. Qed.

Lemma spec_search_right_index cs :
  to_index (spec_search cs Right) =
    count (fun c => match c with Gt => false | _ => true end) cs.
Proof.
  unfold spec_search.
  assert (H : count (fun c => match c with Gt => false | _ => true end) cs =
          count (fun c => match c with Lt => true | _ => false end) cs +
          count (fun c => match c with Eq => true | _ => false end) cs).
  { unfold count. induction cs as [|[] r IH]; cbn; lia. }
  rewrite H. destruct (Nat.eqb_spec (count (fun c => match c with Eq => true | _ => false end) cs) 0) as [E|E];
    cbn; lia.
Qed.

Lemma ssorted_sorted l : ssortedZ l -> sortedZ l.
Proof.
  induction l as [|x r IH]; cbn [sortedZ ssortedZ]; [auto|]. intros [H1 H2]; split; [|auto].
  intros y Hy. specialize (H1 y Hy). lia.
Qed.

Lemma count_map {A B} (f : B -> bool) (g : A -> B) l : count f (map g l) = count (fun x => f (g x)) l.
Proof. unfold count. induction l as [|x r IH]; cbn; [reflexivity|]. destruct (f (g x)); cbn; lia. Qed.
Lemma count_ext {A} (f g : A -> bool) l : (forall x, In x l -> f x = g x) -> count f l = count g l.
Proof.
  unfold count. induction l as [|x r IH]; cbn; intros H; [reflexivity|].
  rewrite (H x) by auto. destruct (g x); cbn; [f_equal|]; apply IH; intros; apply H; auto.
Qed.
Lemma count_zero {A} (f : A -> bool) l : count f l = 0 <-> forall x, In x l -> f x = false.
Proof.
  unfold count. induction l as [|x r IH]; cbn [filter In]; [split; [intros _ ? []|reflexivity]|].
  destruct (f x) eqn:E; cbn [length].
  - split; [discriminate|]. intros H. rewrite H in E by auto. discriminate.
  - rewrite IH. split; intros H y; [intros [<-|]; auto|]. intros; apply H; auto.
Qed.

Lemma search_sorted_list_point (l : list Z) (v : Z) (s : side) : sortedZ l ->
  exists r, search_sorted_list l v s = Ok r /\
    (to_index r = match s with
                  | Left => count (fun x => (x <? v)%Z) l
                  | Right => count (fun x => (x <=? v)%Z) l
                  end) /\
    ((exists i, r = Found i) <-> In v l).
Proof.
  intros Hs. eexists; split; [apply search_sorted_list_correct, Hs|]. split.
  - destruct s; [rewrite spec_search_left_index|rewrite spec_search_right_index];
      rewrite count_map; apply count_ext; intros x _; destruct (Z.compare_spec x v); symmetry; lia.
  - unfold spec_search.
    set (e := count (fun c => match c with Eq => true | _ => false end) (map (fun x => (x ?= v)%Z) l)).
    assert (He : e = 0 <-> ~ In v l).
    { unfold e. rewrite count_map, count_zero. split.
      - intros H Hin. specialize (H v Hin). rewrite Z.compare_refl in H. discriminate.
      - intros H x Hx. destruct (Z.compare_spec x v) as [->| |]; [contradiction|reflexivity|reflexivity]. }
    destruct (Nat.eqb_spec e 0) as [E|E].
    + split; [intros [i Hi]; discriminate|]. intros Hin. apply He in E. contradiction.
    + split; [|eauto]. intros _. destruct (in_dec Z.eq_dec v l) as [Hin|Hn]; [exact Hin|].
      apply He in Hn. contradiction.
Qed.

Lemma search_sorted_nl_correct (l : list (option Z)) (v : Z) (s : side) : sorted_nl l ->
  search_sorted_gen (fun i => Some (cmp_null_last (nth i l None) v)) s (length l) =
  Ok (spec_search (map (fun x => cmp_null_last x v) l) s).
Proof.
  intros H. rewrite <- (map_length (fun x => cmp_null_last x v) l) at 1.
  apply search_sorted_gen_correct; [apply sorted_nl_cmps, H|].
  intros i Hi. rewrite map_length in Hi. f_equal. symmetry.
  apply (map_nth_lt (fun x => cmp_null_last x v)). exact Hi.
Qed.

Lemma sortedZ_app l1 l2 : sortedZ (l1 ++ l2) <->
  sortedZ l1 /\ sortedZ l2 /\ forall x y, In x l1 -> In y l2 -> (x <= y)%Z.
Proof.
  induction l1 as [|a r IH]; cbn [app sortedZ].
  - intuition. contradiction.
  - rewrite IH. split.
    + intros (H1 & H2 & H3 & H4). repeat split; auto.
      * intros y Hy. apply H1, in_or_app; auto.
      * intros x y [<-|Hx] Hy; [apply H1, in_or_app; auto|auto].
    + intros ((H1 & H2) & H3 & H4). repeat split; auto.
      * intros y Hy. apply in_app_or in Hy. destruct Hy; [auto|]. apply H4; cbn; auto.
      * intros x y Hx Hy. apply H4; cbn; auto.
Qed.

Lemma sorted_count_split (f : Z -> bool) l :
  sortedZ l -> (forall x y, (x <= y)%Z -> f y = true -> f x = true) ->
  (forall x, In x (firstn (count f l) l) -> f x = true) /\
  (forall x, In x (skipn (count f l) l) -> f x = false).
Proof.
  intros Hs Hm. unfold count. induction l as [|a r IH]; cbn [filter]; [cbn; intuition|].
  destruct Hs as [Ha Hr]. destruct (f a) eqn:E; cbn [length].
  - cbn [firstn skipn]. destruct (IH Hr) as [I1 I2]. split; [|exact I2].
    intros x [<-|Hx]; auto.
  - assert (Hz : count f r = 0).
    { apply count_zero. intros x Hx. destruct (f x) eqn:Ex; [|reflexivity].
      rewrite (Hm a x) in E; [discriminate| |exact Ex]. auto. }
    unfold count in Hz. rewrite Hz. cbn [firstn skipn]. split; [intros ? []|].
    intros x [<-|Hx]; [exact E|]. apply (proj1 (count_zero f r) Hz x Hx).
Qed.

Lemma search_sorted_insert_sorted (l : list Z) (v : Z) (s : side) r :
  sortedZ l -> search_sorted_list l v s = Ok r ->
  sortedZ (firstn (to_index r) l ++ v :: skipn (to_index r) l).
Proof.
  intros Hs Hr. destruct (search_sorted_list_point l v s Hs) as (r' & E & Hi & _).
  rewrite E in Hr. injection Hr as <-. rewrite Hi.
  pose proof Hs as Hs'.
  set (n := match s with Left => _ | Right => _ end).
  rewrite <- (firstn_skipn n l) in Hs'. apply sortedZ_app in Hs'. destruct Hs' as (H1 & H2 & H3).
  assert (Hn : (forall x, In x (firstn n l) -> (x <= v)%Z) /\ (forall x, In x (skipn n l) -> (v <= x)%Z)).
  { unfold n. destruct s.
    - destruct (sorted_count_split (fun x => (x <? v)%Z) l Hs) as [A B]; [intros; lia|].
      split; intros x Hx; [apply A in Hx|apply B in Hx]; lia.
    - destruct (sorted_count_split (fun x => (x <=? v)%Z) l Hs) as [A B]; [intros; lia|].
      split; intros x Hx; [apply A in Hx|apply B in Hx]; lia. }
  destruct Hn as [N1 N2]. apply sortedZ_app. repeat split; auto.
  intros x y Hx [<-|Hy]; auto.
Qed.
