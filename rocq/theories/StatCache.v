(** The statistics cache behind [array.statistics()]: vortex-array/src/data.rs:140-191 (owned arrays), view.rs:186-264
    (arrays read in place from a message), stats/mod.rs:50-61 (the Statistics trait), stats/flatbuffers.rs:7-47 (the
    message), implementation.rs:190-253 (to_array_data).
    Simplifications: [tree] follows only the children that some compute_statistics consults (chunks; codes and values of a
    dictionary): statistics of other children (struct fields, validity, packed parts, ...) live in trees of their own.
    The RwLock of an array serialises its queries; two threads computing the same statistic at once both write what they
    computed, which is the history with the two queries one after the other. *)
From Verif Require Import Base Spec Arr StatsModel.

(** One array in memory: is it a view (ArrayView, no cache of its own: its statistics are those of the message) or owned
    (ArrayData with a [stats_map]); the stored statistics; the children. Clones of an array share the same [stats_map]
    (an Arc), so a tree is the state seen by all clones. *)
Inductive tree := Node (view : bool) (own : stats) (kids : list tree).
Definition is_view (t : tree) : bool := let '(Node v _ _) := t in v.
Definition own (t : tree) : stats := let '(Node _ o _) := t in o.
Definition kids (t : tree) : list tree := let '(Node _ _ ks) := t in ks.

(** [Statistics::get(k)]: the entry for [k] alone, data.rs:141-152 and view.rs:187-231. *)
Definition pick (k : stat) (s : stats) : stats :=
  match k with
  | KBw => Stats (s_bw s) None None None None None None None None None
  | KTz => Stats None (s_tz s) None None None None None None None None
  | KConst => Stats None None (s_const s) None None None None None None None
  | KSorted => Stats None None None (s_sorted s) None None None None None None
  | KStrict => Stats None None None None (s_strict s) None None None None None
  | KMax => Stats None None None None None (s_max s) None None None None
  | KMin => Stats None None None None None None (s_min s) None None None
  | KRuns => Stats None None None None None None None (s_runs s) None None
  | KTrue => Stats None None None None None None None None (s_true s) None
  | KNulls => Stats None None None None None None None None None (s_nulls s)
  end.

(** encodings/dict/src/stats.rs:9-48, from the answers to the queries on the codes ([sc]) and the values ([sv]). *)
Definition dict_answers (sc sv : stat -> stats) : stats :=
  let srt := match s_sorted (sv KSorted) with Some b => b | None => false end in
  Stats None None (s_const (sc KConst))
    (if srt then s_sorted (sc KSorted) else None) (if srt then s_strict (sc KStrict) else None)
    (s_max (sv KMax)) (s_min (sv KMin)) (s_runs (sc KRuns)) None (s_nulls (sc KNulls)).

(** [compute(k)], data.rs:174-190 and view.rs:253-263. The first component is the set the answer is read from, the second
    the state afterwards. An owned array without [k] extends its map with compute_statistics(k); a view computes without
    remembering. compute_statistics: chunked/stats.rs:6-22 asks every chunk and merges what the chunks then {e have stored}
    (to_set); dict/src/stats.rs:9-48 asks codes and values in turn; the other encodings look only at their own data. *)
Fixpoint compute (k : stat) (a : array) (t : tree) {struct a} : stats * tree :=
  match t with
  | Node v o ks =>
      if has_stat o k then (o, t) else
      let '(s, ks') :=
        match a with
        | AChunked d cs =>
            let ks' := (fix go (cs : list array) (ts : list tree) : list tree :=
                          match cs, ts with c :: cs', t :: ts' => snd (compute k c t) :: go cs' ts' | _, _ => [] end) cs ks in
            (match map own ks' with [] => no_stats | s :: r => fold_left (merge d) r s end, ks')
        | ADict codes vals =>
            match ks with
            | [tc; tv] =>
                let '(c1, tc) := compute KRuns codes tc in
                let '(v1, tv) := compute KMin vals tv in
                let '(v2, tv) := compute KMax vals tv in
                let '(c2, tc) := compute KConst codes tc in
                let '(c3, tc) := compute KNulls codes tc in
                let '(v3, tv) := compute KSorted vals tv in
                let srt := match s_sorted v3 with Some b => b | None => false end in
                let '(c4, tc) := if srt then compute KSorted codes tc else (no_stats, tc) in
                let '(c5, tc) := if srt then compute KStrict codes tc else (no_stats, tc) in
                (dict_answers (fun k => match k with KRuns => c1 | KConst => c2 | KNulls => c3 | KSorted => c4 | _ => c5 end)
                   (fun k => match k with KMin => v1 | KMax => v2 | _ => v3 end), [tc; tv])
            | _ => (no_stats, ks)
            end
        | AConst d x n => (const_computed x n, ks)
        | _ => (stats_after k a, ks)
        end in
      if v then (s, Node v o ks') else let o' := extend o s in (o', Node v o' ks')
  end.

(** [set], data.rs:161-172 and view.rs:249-251 (a warning, nothing stored). Several [set]s at once. *)
Definition put (s : stats) (t : tree) : tree :=
  match t with Node v o ks => if v then t else Node v (extend o s) ks end.

(** The statistics table of a message, stats/flatbuffers.rs:32-43. The extrema are written as bare ScalarValues. *)
Record fb_stats := FbStats { fb_min : option value; fb_max : option value; fb_sorted : option bool; fb_strict : option bool;
  fb_const : option bool; fb_runs : option nat; fb_true : option nat; fb_nulls : option nat;
  fb_bw : option (list nat); fb_tz : option (list nat) }.
Definition write_stats (s : stats) : fb_stats :=
  FbStats (option_map snd (s_min s)) (option_map snd (s_max s)) (s_sorted s) (s_strict s) (s_const s) (s_runs s) (s_true s)
    (s_nulls s) (s_bw s) (s_tz s).
(** ArrayView::get, view.rs:187-231: the extrema take the data type of the array. *)
Definition read_stats (d : dtype) (f : fb_stats) : stats :=
  Stats (fb_bw f) (fb_tz f) (fb_const f) (fb_sorted f) (fb_strict f) (option_map (fun x => (nullable d, x)) (fb_max f))
    (option_map (fun x => (nullable d, x)) (fb_min f)) (fb_runs f) (fb_true f) (fb_nulls f).

(** Writing an array to a message and reading it back: every node becomes a view whose statistics are those written
    (messages.rs:149 writes the statistics of each array, read by ArrayView). *)
Fixpoint send (a : array) (t : tree) {struct a} : tree :=
  match t with
  | Node _ o ks =>
      Node true (read_stats (adtype a) (write_stats o))
        match a with
        | AChunked _ cs =>
            (fix go (cs : list array) (ts : list tree) : list tree :=
               match cs, ts with c :: cs', t :: ts' => send c t :: go cs' ts' | _, _ => [] end) cs ks
        | ADict codes vals => match ks with [tc; tv] => [send codes tc; send vals tv] | _ => ks end
        | _ => ks
        end
  end.
(** to_array_data, implementation.rs:210-253: an owned array carrying the statistics of the view; its children stay views. *)
Definition thaw (t : tree) : tree := match t with Node _ o ks => Node false o ks end.

(** A freshly built array: nothing stored, except that ConstantArray::new records what it knows (constant/mod.rs:44-50). *)
Fixpoint fresh (a : array) : tree :=
  Node false (match a with AConst d x n => const_base d x | _ => no_stats end)
    match a with
    | AChunked _ cs => map fresh cs
    | ADict codes vals => [fresh codes; fresh vals]
    | _ => []
    end.

(** * Histories *)
(** What a program may do with the statistics of an array or of one of its parts. *)
Inductive query :=
  | Get (k : stat)          (* statistics().get(k) *)
  | ToSet                   (* statistics().to_set() *)
  | Compute (k : stat)      (* statistics().compute(k) *)
  | Put (s : stats)         (* statistics().set(..), for each statistic present in s *)
  | Send                    (* the part travels through a message *)
  | Thaw.                   (* the part is turned into owned data *)
Definition ask (q : query) (a : array) (t : tree) : option stats * tree :=
  match q with
  | Get k => (Some (pick k (own t)), t)
  | ToSet => (Some (own t), t)
  | Compute k => let '(s, t') := compute k a t in (Some (pick k s), t')
  | Put s => (None, put s t)
  | Send => (None, send a t)
  | Thaw => (None, thaw t)
  end.
(** The part of an array at a path: chunk numbers; 0 for the codes and 1 for the values of a dictionary. *)
Definition children (a : array) : list array :=
  match a with AChunked _ cs => cs | ADict codes vals => [codes; vals] | _ => [] end.
Fixpoint part (p : list nat) (a : array) : option array :=
  match p with [] => Some a | i :: p' => match nth_error (children a) i with Some c => part p' c | None => None end end.
Fixpoint node (p : list nat) (t : tree) : option tree :=
  match p with [] => Some t | i :: p' => match nth_error (kids t) i with Some c => node p' c | None => None end end.
Fixpoint set_nth {A} (i : nat) (x : A) (l : list A) : list A :=
  match l, i with [], _ => [] | _ :: r, 0 => x :: r | y :: r, S i' => y :: set_nth i' x r end.
(** Ask [q] of the part at [p]. *)
Fixpoint ask_at (p : list nat) (q : query) (a : array) (t : tree) : option stats * tree :=
  match p with
  | [] => ask q a t
  | i :: p' =>
      match nth_error (children a) i, nth_error (kids t) i with
      | Some c, Some tc => let '(r, tc') := ask_at p' q c tc in (r, Node (is_view t) (own t) (set_nth i tc' (kids t)))
      | _, _ => (None, t)
      end
  end.
(** All answers of a history, each with the path it was asked at, and the final state. *)
Fixpoint run (h : list (list nat * query)) (a : array) (t : tree) : list (list nat * stats) * tree :=
  match h with
  | [] => ([], t)
  | (p, q) :: h' =>
      let '(r, t1) := ask_at p q a t in
      let '(rs, t2) := run h' a t1 in
      (match r with Some s => (p, s) :: rs | None => rs end, t2)
  end.

(** * Specification *)
(** Stored statistics are usable when they are true of the elements, and whoever knows that the array is constant also
    knows its minimum (merging compares the minima: see C30, [merge_constant_refuted]). *)
Definition usable (a : array) (s : stats) : Prop :=
  sound (adtype a) (logical a) s /\ (s_const s = Some true -> s_min s <> None).
(** Everything stored in the tree is usable; constants know their minimum. *)
Fixpoint caches_true (a : array) (t : tree) {struct a} : Prop :=
  match t with
  | Node v o ks =>
      usable a o /\
      match a with
      | AConst _ _ _ => s_min o <> None
      | AChunked _ cs =>
          (fix go (cs : list array) (ts : list tree) : Prop :=
             match cs, ts with [], [] => True | c :: cs', t :: ts' => caches_true c t /\ go cs' ts' | _, _ => False end) cs ks
      | ADict codes vals => match ks with [tc; tv] => caches_true codes tc /\ caches_true vals tv | _ => False end
      | _ => True
      end
  end.
