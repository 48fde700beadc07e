(** C58: every positioned reader reads the bytes it holds; writers keep what is written in order. *)
From Verif Require Import Base Spec Arr Buf PropBuf Io.

(** * Specification *)
(** What bytes a source holds: an offset leaves out the bytes before it; a store answers a range of the object with its bytes. *)
Fixpoint holds (s : source) (l : list Z) : Prop :=
  match s with
  | SSlice k => k = l /\ (Z.of_nat (length l) < u64_end)%Z
  | SBuffer b => contents b = l /\ (Z.of_nat (length l) < u64_end)%Z
  | SOffset s off => exists front, length front = off /\ holds s (front ++ l)
  | SObject get n => n = length l /\ (Z.of_nat (length l) < u64_end)%Z /\
      forall i j, i <= j -> j <= length l -> get i j = Some (firstn (j - i) (skipn i l))
  end.
(** A source in memory, its offsets being less than half the range of a u64. *)
Fixpoint in_memory (s : source) : Prop := match s with SOffset s _ => in_memory s | SObject _ _ => False | _ => True end.
Fixpoint offsets (s : source) : nat := match s with SOffset s off => off + offsets s | _ => 0 end.

Lemma holds_fits s : forall l, holds s l -> (Z.of_nat (length l + offsets s) < u64_end)%Z.
Proof.
  induction s as [k|b|s IH off|get n]; cbn [holds offsets]; intros l H.
  - lia.
  - lia.
  - destruct H as (f & <- & H). apply IH in H. rewrite app_length in H. lia.
  - lia.
Qed.
Lemma overflows_false n : overflows n = false <-> (Z.of_nat n < u64_end)%Z.
Proof. unfold overflows. destruct (Z.leb_spec u64_end (Z.of_nat n)); split; intros; try congruence; lia. Qed.
(** A read within the bytes is these bytes: for every kind of source. *)
Theorem reads_within s : forall l pos n, holds s l -> pos + n <= length l -> read_at s pos n = Ok (firstn n (skipn pos l)).
Proof.
  induction s as [k|b|s IH off|get m]; cbn [holds read_at]; intros l pos n H L.
  - destruct H as [-> F]. rewrite (proj2 (overflows_false _)) by lia. destruct (Nat.ltb_spec (length l) (n + pos)); [lia|reflexivity].
  - destruct H as [C F]. rewrite (proj2 (overflows_false _)) by lia.
    assert (B : buf_len b = length l) by (rewrite <- C; destruct b; reflexivity).
    destruct (Nat.ltb_spec (buf_len b) (n + pos)); [lia|].
    destruct (slice_is_the_range b pos (pos + n) ltac:(lia)) as (r & E & _). rewrite E. cbn [bind].
    rewrite (slice_contents _ _ _ _ E), C. unfold lslice. repeat f_equal. lia.
  - destruct H as (f & Lf & H). pose proof (holds_fits _ _ H) as F. rewrite app_length in F.
    rewrite (proj2 (overflows_false _)) by lia. rewrite (IH (f ++ l)); auto; [|rewrite app_length; lia].
    f_equal. f_equal. rewrite skipn_app, skipn_all2 by lia. cbn [app]. f_equal. lia.
  - destruct H as (-> & F & G). rewrite (proj2 (overflows_false _)) by lia. rewrite G by lia.
    replace (pos + n - pos) with n by lia. rewrite firstn_length_le by (rewrite skipn_length; lia). rewrite Nat.eqb_refl. reflexivity.
Qed.
(** A read in memory past the end is refused: it is not cut short, and does not panic. *)
Theorem reads_past_the_end s : forall l pos n, in_memory s -> holds s l -> length l < pos + n ->
  (Z.of_nat (pos + n + offsets s) < u64_end)%Z -> read_at s pos n = Err.
Proof.
  induction s as [k|b|s IH off|get m]; cbn [holds read_at in_memory offsets]; intros l pos n I H L F.
  - destruct H as [-> _]. rewrite (proj2 (overflows_false _)) by lia. destruct (Nat.ltb_spec (length l) (n + pos)); [reflexivity|lia].
  - destruct H as [C _]. rewrite (proj2 (overflows_false _)) by lia.
    assert (B : buf_len b = length l) by (rewrite <- C; destruct b; reflexivity).
    destruct (Nat.ltb_spec (buf_len b) (n + pos)); [reflexivity|lia].
  - destruct H as (f & Lf & H). rewrite (proj2 (overflows_false _)) by lia.
    apply (IH (f ++ l)); auto; [rewrite app_length; lia|lia].
  - contradiction.
Qed.
(** A reader's size is the number of bytes it holds. *)
Theorem sizes s : forall l, holds s l -> source_size s = Ok (length l).
Proof.
  induction s as [k|b|s IH off|get m]; cbn [holds source_size]; intros l H.
  - destruct H as [-> _]. reflexivity.
  - destruct H as [<- _]. destruct b; reflexivity.
  - destruct H as (f & Lf & H). rewrite (IH _ H). cbn [bind]. rewrite app_length. destruct (Nat.ltb_spec (length f + length l) off); [lia|].
    f_equal. lia.
  - destruct H as [-> _]. reflexivity.
Qed.
(** Sources in memory holding the same bytes cannot be told apart, whatever offsets they are behind. *)
Theorem sources_agree s s' l pos n : in_memory s -> in_memory s' -> holds s l -> holds s' l ->
  (Z.of_nat (pos + n + offsets s) < u64_end)%Z -> (Z.of_nat (pos + n + offsets s') < u64_end)%Z ->
  read_at s pos n = read_at s' pos n /\ source_size s = source_size s'.
Proof.
  intros I I' H H' F F'. split; [|rewrite (sizes s l), (sizes s' l); auto].
  destruct (Nat.le_gt_cases (pos + n) (length l)).
  - rewrite (reads_within s l), (reads_within s' l); auto.
  - rewrite (reads_past_the_end s l), (reads_past_the_end s' l); auto.
Qed.
(** A cursor over any source in memory reads like the bytes themselves: any sequence of reads, also after one that was refused. *)
Theorem cursor_reads_the_bytes s l ns : in_memory s -> holds s l -> 
  Forall (fun n => Z.of_nat (length l + n + offsets s) < u64_end)%Z ns ->
  cursor_reads s 0 ns = bytes_reads l ns.
Proof.
  intros I H F. enough (G : forall pos, pos <= length l -> cursor_reads s pos ns = bytes_reads (skipn pos l) ns) by (apply (G 0); lia).
  induction F as [|n ns Fn F IH]; intros pos P; cbn [cursor_reads bytes_reads]; [reflexivity|].
  unfold cursor_read, bytes_read. rewrite skipn_length. destruct (Nat.ltb_spec (length l - pos) n).
  - rewrite (reads_past_the_end s l) by (auto; lia). f_equal. apply IH; auto.
  - rewrite (reads_within s l) by (auto; lia). rewrite firstn_length_le by (rewrite skipn_length; lia). f_equal.
    rewrite IH by lia. f_equal. clear. revert l. induction pos; intros [|x l]; cbn; auto; destruct n; reflexivity.
Qed.
(** What is read in sequence is the bytes, in order, none twice and none left out. *)
Theorem reads_are_consecutive l : forall ns, fold_right Nat.add 0 ns <= length l ->
  exists rs, bytes_reads l ns = map Ok rs /\ map (@length Z) rs = ns /\ concat rs = firstn (fold_right Nat.add 0 ns) l.
Proof.
  intros ns. revert l. induction ns as [|n ns IH]; intros l H; cbn [fold_right bytes_reads] in *.
  - exists []. repeat split.
  - unfold bytes_read. destruct (Nat.ltb_spec (length l) n); [lia|].
    destruct (IH (skipn n l)) as (rs & E & M & C); [rewrite skipn_length; lia|].
    exists (firstn n l :: rs). cbn [map concat]. rewrite E, M, C, firstn_length_le by lia. repeat split.
    rewrite <- (firstn_skipn n l) at 3. rewrite firstn_app, firstn_firstn, firstn_length_le by lia.
    f_equal; [f_equal; lia|f_equal; lia].
Qed.
(** A range fetched from a store and then read in pieces gives the bytes of the range. *)
Theorem store_ranges get l a b ns : a <= b <= length l ->
  holds (SObject get (length l)) l -> Forall (fun n => Z.of_nat (length l + n) < u64_end)%Z ns ->
  vortex_read get a b ns = Ok (bytes_reads (firstn (b - a) (skipn a l)) ns).
Proof.
  intros L (_ & F & G) N. unfold vortex_read. rewrite G by lia. f_equal.
  assert (K : length (firstn (b - a) (skipn a l)) <= length l) by (rewrite firstn_length, skipn_length; lia).
  apply cursor_reads_the_bytes; cbn; auto.
  - split; auto. lia.
  - eapply Forall_impl; [|exact N]. cbn. intros; lia.
Qed.
(** But a store that answers a range past the end with the bytes there are, as the object_store crate's do, makes the reader panic where all
    others refuse; and an OffsetReadAt past the end panics when asked its size. *)
Definition short_get (l : list Z) (i j : nat) : option (list Z) := if i <? length l then Some (lslice l i j) else None.
Theorem object_past_the_end_refuted : exists l pos n, 
  (forall i j, i <= j -> j <= length l -> i < length l -> short_get l i j = Some (firstn (j - i) (skipn i l))) /\
  read_at (SObject (short_get l) (length l)) pos n = Panic /\ read_at (SSlice l) pos n = Err.
Proof.
  exists [1; 2; 3]%Z, 2, 4. split; [|split; reflexivity]. intros i j H L I. unfold short_get. destruct (Nat.ltb_spec i (length [1; 2; 3]%Z)); [|lia].
  reflexivity.
Qed.
Theorem offset_past_the_end_refuted : exists s pos, source_size s = Panic /\ read_at s pos 0 = Err.
Proof. exists (SOffset (SSlice [1; 2]%Z) 5), 0. split; reflexivity. Qed.

(** * Writers *)
Definition written (cs : list call) : list Z := flat_map (fun c => match c with CWrite bs => bs | _ => [] end) cs.
Definition is_shutdown (c : call) : bool := match c with CShutdown _ => true | _ => false end.
(** A Vec holds everything written, in order. *)
Theorem vec_holds_the_writes cs : forall l os w, steps (WVec l) cs = (os, w) -> w = WVec (l ++ written cs) /\ Forall (fun o => o = true) os.
Proof.
  induction cs as [|c cs IH]; cbn [steps written flat_map]; intros l os w H.
  - inversion H. rewrite app_nil_r. auto.
  - destruct c as [bs|a|a]; cbn [step] in H; 
      match type of H with context [steps (WVec ?k) cs] => destruct (steps (WVec k) cs) as [os' w'] eqn:E end;
      inversion H; subst; destruct (IH _ _ _ E) as [-> F]; (split; [|constructor; auto]); cbn [app]; rewrite ?app_assoc; reflexivity.
Qed.
(** Nothing can be done with the writer of an object once it is shut down. *)
Lemma after_shutdown o cs : steps (WObject None o) cs = (map (fun _ => false) cs, WObject None o).
Proof. induction cs as [|c cs IH]; cbn [steps map]; [reflexivity|]. destruct c; cbn [step]; rewrite IH; reflexivity. Qed.
(** An object appears only when shutdown succeeds, with everything written before it and nothing written after; until then there is none. *)
Theorem object_is_all_or_nothing cs : forall l,
  (existsb is_shutdown cs = false -> exists os, steps (WObject (Some l) None) cs = (os, WObject (Some (l ++ written cs)) None)) /\
  (forall xs a ys, cs = xs ++ CShutdown a :: ys -> existsb is_shutdown xs = false ->
     exists os, steps (WObject (Some l) None) cs =
       (os ++ a :: map (fun _ => false) ys, WObject None (if a then Some (l ++ written xs) else None)) /\ length os = length xs).
Proof.
  assert (A : forall cs l, existsb is_shutdown cs = false ->
    exists os, steps (WObject (Some l) None) cs = (os, WObject (Some (l ++ written cs)) None)).
  { clear. induction cs as [|c cs IH]; intros l H; cbn [existsb steps written flat_map] in *.
    - rewrite app_nil_r. eauto.
    - destruct c as [bs|a|a]; cbn [is_shutdown orb step] in *; [| |discriminate].
      + destruct (IH (l ++ bs) H) as (os & E). rewrite E, <- app_assoc. eauto.
      + destruct (IH l H) as (os & E). rewrite E. eauto. }
  intros l. split; [apply A|]. intros xs a ys -> H. revert l. induction xs as [|c xs IH]; intros l; cbn [app steps].
  - cbn [step]. rewrite after_shutdown. exists []. cbn [written flat_map app]. rewrite app_nil_r. destruct a; auto.
  - cbn [existsb] in H. destruct c as [bs|b|b]; cbn [is_shutdown orb step] in *; [| |discriminate].
    + destruct (IH H (l ++ bs)) as (os & E & N). rewrite E. exists (true :: os). cbn [written flat_map app length].
      rewrite <- app_assoc. split; [reflexivity|lia].
    + destruct (IH H l) as (os & E & N). rewrite E. exists (b :: os). cbn [written flat_map app length]. split; [reflexivity|lia].
Qed.

(** * Cases *)
Example io_readers_case : let s := SOffset (SOffset (SBuffer (BBytes [9; 8; 1; 2; 3]%Z)) 1) 1 in
  holds s [1; 2; 3]%Z /\ in_memory s /\ cursor_reads s 0 [2; 2; 1] = [Ok [1; 2]%Z; Err; Ok [3]%Z].
Proof. repeat split. exists [8]%Z. split; [reflexivity|]. exists [9]%Z. repeat split. Qed.
Example io_object_case : holds (SObject (fun i j => Some (firstn (j - i) (skipn i [1; 2]%Z))) 2) [1; 2]%Z /\
  steps (WObject (Some []) None) [CWrite [1]%Z; CFlush true; CWrite [2]%Z; CShutdown true; CWrite [3]%Z; CShutdown true] =
    ([true; true; true; true; false; false], WObject None (Some [1; 2]%Z)).
Proof. repeat split. Qed.

Print Assumptions reads_within.
Print Assumptions reads_past_the_end.
Print Assumptions sizes.
Print Assumptions sources_agree.
Print Assumptions cursor_reads_the_bytes.
Print Assumptions reads_are_consecutive.
Print Assumptions store_ranges.
Print Assumptions object_past_the_end_refuted.
Print Assumptions offset_past_the_end_refuted.
Print Assumptions vec_holds_the_writes.
Print Assumptions object_is_all_or_nothing.
