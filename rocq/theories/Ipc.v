(** C34, C35, C36 (streams): array trees as messages and the IPC stream (vortex-serde). *)
From Verif Require Import Base Spec Arr ArrRead.

(** * Model *)

(** ** Array trees *)

(** An array as serialisation sees it (vortex-array/src/data.rs:16-60): encoding id, serialised metadata, serialised statistics,
    an optional buffer, children. An array view (view.rs:18-31) shows the same things; its children are taken to be all the
    children of the flatbuffer, in order (view.rs:150-156 asks the encoding to visit them). *)
Inductive atree := Node (enc : nat) (meta stats : list Z) (buf : option (list Z)) (ch : list atree).
(** fb::Array, vortex-flatbuffers/flatbuffers/vortex-array/array.fbs. *)
Inductive fbtree := FNode (enc : nat) (meta stats : list Z) (bi : option nat) (ch : list fbtree).

Definition a_buf (t : atree) := match t with Node _ _ _ b _ => b end.
Definition a_ch (t : atree) := match t with Node _ _ _ _ c => c end.

(** ArrayChildrenIterator, lib.rs:232-252: pop a node, push its children in reverse. The top of the stack is the head of the list;
    [fuel] is the number of steps allowed. *)
Fixpoint dfs_iter (fuel : nat) (stack : list atree) : list atree :=
  match fuel with
  | 0 => []
  | S n => match stack with [] => [] | t :: r => t :: dfs_iter n (a_ch t ++ r) end
  end.
Fixpoint nodes (t : atree) : nat := match t with Node _ _ _ _ c => S (list_sum (map nodes c)) end.
Definition depth_first (t : atree) : list atree := dfs_iter (nodes t) [t].
Definition opt_list {A} (o : option A) : list A := match o with Some x => [x] | None => [] end.
Definition all_buffers (t : atree) : list (list Z) := flat_map (fun x => opt_list (a_buf x)) (depth_first t).

(** cumulative_nbuffers, lib.rs:131-137. *)
Definition has_buf {A} (b : option A) : nat := match b with Some _ => 1 | None => 0 end.
Fixpoint nbuf (t : atree) : nat := match t with Node _ _ _ b c => list_sum (map nbuf c) + has_buf b end.

(** IPCArray::write_flatbuffer, messages.rs:104-163. *)
Fixpoint to_fb (t : atree) (off : nat) : fbtree :=
  match t with
  | Node e m s b c =>
      FNode e m s (match b with Some _ => Some off | None => None end)
        ((fix go (l : list atree) (o : nat) : list fbtree :=
            match l with [] => [] | x :: r => to_fb x o :: go r (o + nbuf x) end) c (off + has_buf b))
  end.

(** ArrayView: buffer and children of a view, view.rs:113-167, followed down the whole tree. *)
Fixpoint view (bufs : list (list Z)) (f : fbtree) : result atree :=
  match f with
  | FNode e m s bi c =>
      do b <- match bi with
              | None => Ok None
              | Some i => match nth_error bufs i with Some x => Ok (Some x) | None => Panic end
              end;
      do c' <- mapM (fun g => g) (map (view bufs) c);
      Ok (Node e m s b c')
  end.

(** ** Messages *)

(** [(n + (ALIGNMENT - 1)) & !(ALIGNMENT - 1)] with ALIGNMENT = 64, lib.rs:10. *)
Definition aligned (n : nat) : nat := (n + 63) / 64 * 64.
Definition zeros (n : nat) : list Z := repeat 0%Z n.
(** [&ZEROS[0..padding]], message_writer.rs:15: the slice panics beyond 512 bytes. *)
Definition zeros_r (n : nat) : result (list Z) := if n <=? 512 then Ok (zeros n) else Panic.

(** fb::Message, vortex-serde/message.fbs: a schema; a batch with its array tree, length, (offset, padding) of each buffer and the
    total size; a page with its size and padding. *)
Inductive msg :=
| MSchema (d : dtype)
| MBatch (a : fbtree) (len : nat) (bufs : list (nat * nat)) (size : nat)
| MPage (size pad : nat).

(** The flatbuffers library, not modelled: a byte encoding of messages. The property of it that is used is that a message followed by
    padding is read back. [dec] gives nothing on bytes that do not pass the verifier. *)
Record codec := Codec { enc : msg -> list Z; dec : list Z -> option msg }.
Definition decodes (c : codec) (m : msg) : Prop := forall k, dec c (enc c m ++ zeros k) = Some m.

Definition u32_le (z : Z) : list Z := [z mod 256; z / 256 mod 256; z / 65536 mod 256; z / 16777216 mod 256]%Z.
Definition le_u32 (l : list Z) : Z := (nth 0 l 0 + 256 * nth 1 l 0 + 65536 * nth 2 l 0 + 16777216 * nth 3 l 0)%Z.
(** [n as u32] *)
Definition as_u32 (n : nat) : Z := (Z.of_nat n mod 4294967296)%Z.

(** IPCBatch::write_flatbuffer, messages.rs:63-102. *)
Fixpoint buffer_table (off : nat) (bs : list (list Z)) : list (nat * nat) * nat :=
  match bs with
  | [] => ([], off)
  | b :: r => let (t, e) := buffer_table (off + aligned (length b)) r in ((off, aligned (length b) - length b) :: t, e)
  end.
Definition batch_msg (len : nat) (t : atree) : msg :=
  let (bt, size) := buffer_table 0 (all_buffers t) in MBatch (to_fb t 0) len bt size.
(** IPCPage::write_flatbuffer, messages.rs:165-184: the size is cut to 32 bits. *)
Definition page_msg (b : list Z) : msg := MPage (Z.to_nat (as_u32 (length b))) (aligned (length b) - length b).

(** ** Writer: message_writer.rs. The state is what has been written, and the position counter. *)
Record writer := W { w_out : list Z; w_pos : nat }.
Definition put (w : writer) (b : list Z) : writer := W (w_out w ++ b) (w_pos w + length b).

(** write_message, message_writer.rs:88-126. *)
Definition write_message (c : codec) (w : writer) (m : msg) : result writer :=
  let buffer := enc c m in
  let unaligned := 4 + length buffer in
  let al := aligned unaligned in
  let w := put w (u32_le (as_u32 (al - 4))) in
  let w := put w buffer in
  do z <- zeros_r (al - unaligned);
  let w := put w z in
  if w_pos w mod 64 =? 0 then Ok w else Panic.

(** Array::all_buffer_offsets, vortex-array/src/lib.rs:141-157. *)
Fixpoint buffer_offsets (off : nat) (bs : list (list Z)) : list nat :=
  match bs with [] => [off] | b :: r => off :: buffer_offsets (off + aligned (length b)) r end.

(** write_batch, message_writer.rs:51-73: zip_eq panics on different lengths, the subtraction on underflow. *)
Fixpoint write_buffers (w : writer) (cur : nat) (bs : list (list Z)) (ends : list nat) : result writer :=
  match bs, ends with
  | [], [] => Ok w
  | b :: bs', e :: ends' =>
      let w := put w b in
      if e <? cur + length b then Panic
      else do z <- zeros_r (e - cur - length b); write_buffers (put w z) e bs' ends'
  | _, _ => Panic
  end.
Definition write_batch (c : codec) (w : writer) (len : nat) (t : atree) : result writer :=
  do w <- write_message c w (batch_msg len t);
  write_buffers w 0 (all_buffers t) (skipn 1 (buffer_offsets 0 (all_buffers t))).

(** write_page, message_writer.rs:75-86. *)
Definition write_page (c : codec) (w : writer) (b : list Z) : result writer :=
  do w <- write_message c w (page_msg b);
  let w := put w b in
  do z <- zeros_r (aligned (length b) - length b); Ok (put w z).

(** What is written, in order: a schema, a batch (length and array), a page. *)
Inductive item := IDType (d : dtype) | IBatch (len : nat) (t : atree) | IPage (b : list Z).
Definition write_item (c : codec) (w : writer) (i : item) : result writer :=
  match i with
  | IDType d => write_message c w (MSchema d)  (* message_writer.rs:46-49 *)
  | IBatch n t => write_batch c w n t
  | IPage b => write_page c w b
  end.
Fixpoint write_items (c : codec) (w : writer) (l : list item) : result writer :=
  match l with [] => Ok w | i :: r => do w <- write_item c w i; write_items c w r end.

(** ** Reader: message_reader.rs. The state is the rest of the input, the loaded message and the finished flag. *)
Record reader := R { r_in : list Z; r_msg : list Z; r_fin : bool }.

(** VortexRead::read_into, io/read.rs:50-61: all the bytes or UnexpectedEof ([None]). *)
Definition read_into (inp : list Z) (n : nat) : option (list Z * list Z) :=
  if length inp <? n then None else Some (firstn n inp, skipn n inp).

(** load_next_message, message_reader.rs:37-68. *)
Definition load_next (c : codec) (r : reader) : result (bool * reader) :=
  match read_into (r_in r) 4 with
  | None => Ok (false, R (r_in r) [] (r_fin r))
  | Some (lb, inp) =>
      let len := le_u32 lb in
      if (len =? 4294967295)%Z then Ok (false, R inp [] (r_fin r))
      else if (len =? 0)%Z then Err
      else
        match read_into inp (Z.to_nat len) with
        | None => Err
        | Some (m, inp') => match dec c m with None => Err | Some _ => Ok (true, R inp' m (r_fin r)) end
        end
  end.
(** try_new, 26-35: the outcome of the first load is dropped. *)
Definition try_reader (c : codec) (inp : list Z) : result reader :=
  do (_, r) <- load_next c (R inp [] false); Ok r.

(** peek, 70-76: unchecked access to the message; undefined (a panic here) when nothing has been loaded. *)
Definition peek (c : codec) (r : reader) : result (option msg) :=
  if r_fin r then Ok None else match dec c (r_msg r) with Some m => Ok (Some m) | None => Panic end.
(** next, 78-87. *)
Definition next (c : codec) (r : reader) : result (list Z * reader) :=
  if r_fin r then Err
  else
    do (more, r') <- load_next c (R (r_in r) [] false);
    Ok (r_msg r, if more then r' else R (r_in r') (r_msg r') true).

(** read_dtype, 89-106. *)
Definition read_dtype (c : codec) (r : reader) : result (dtype * reader) :=
  do p <- peek c r;
  match p with
  | Some (MSchema _) =>
      do (buf, r') <- next c r;
      match dec c buf with Some (MSchema d) => Ok (d, r') | Some _ => Err | None => Panic end
  | _ => Err
  end.

(** ArrayBufferReader::read in the state ReadingBuffers, 272-303: split_to and advance panic beyond the end, the subtraction on
    underflow. *)
Fixpoint split_buffers (bufs : list (nat * nat)) (size : nat) (bytes : list Z) : result (list (list Z)) :=
  match bufs with
  | [] => Ok []
  | (off, pad) :: r =>
      let nxt := match r with [] => size | (o, _) :: _ => o end in
      if nxt <? off + pad then Panic
      else
        let len := nxt - off - pad in
        if length bytes <? len + pad then Panic
        else do bs <- split_buffers r size (skipn (len + pad) bytes); Ok (firstn len bytes :: bs)
  end.

(** into_array, 321-342, with ArrayView::try_new, view.rs:45-83: the encoding of the root must be known. *)
Definition fb_enc (f : fbtree) : nat := match f with FNode e _ _ _ _ => e end.
Definition into_array (known : nat -> bool) (m : msg) (bufs : list (list Z)) : result (nat * atree) :=
  match m with
  | MBatch a len _ _ => if known (fb_enc a) then do t <- view bufs a; Ok (len, t) else Err
  | _ => Err
  end.

(** maybe_read_chunk, 108-132. *)
Definition maybe_read_chunk (c : codec) (known : nat -> bool) (r : reader) : result (option (nat * atree) * reader) :=
  do p <- peek c r;
  match p with
  | Some (MBatch a len bufs size) =>
      match read_into (r_in r) size with
      | None => Err
      | Some (body, inp) =>
          do bs <- split_buffers bufs size body;
          do (_, r') <- next c (R inp (r_msg r) (r_fin r));
          do x <- into_array known (MBatch a len bufs size) bs; Ok (Some x, r')
      end
  | _ => Ok (None, r)
  end.

(** maybe_read_page, 190-205. *)
Definition maybe_read_page (c : codec) (r : reader) : result (option (list Z) * reader) :=
  do p <- peek c r;
  match p with
  | Some (MPage size pad) =>
      match read_into (r_in r) (size + pad) with
      | None => Err
      | Some (body, inp) => do (_, r') <- next c (R inp (r_msg r) (r_fin r)); Ok (Some (firstn size body), r')
      end
  | _ => Ok (None, r)
  end.

(** A client that reads whatever comes next: a batch if there is one, else a page, else a schema. *)
Definition read_item (c : codec) (known : nat -> bool) (r : reader) : result (option item * reader) :=
  do (x, r) <- maybe_read_chunk c known r;
  match x with
  | Some (n, t) => Ok (Some (IBatch n t), r)
  | None =>
      do (x, r) <- maybe_read_page c r;
      match x with
      | Some b => Ok (Some (IPage b), r)
      | None =>
          do p <- peek c r;
          match p with None => Ok (None, r) | Some _ => do (d, r) <- read_dtype c r; Ok (Some (IDType d), r) end
      end
  end.

(** How reading ended: end of stream, an error, a panic (or the [fuel] ran out). *)
Inductive fate := FEnd | FErr | FPanic | FMore.
Fixpoint drain (c : codec) (known : nat -> bool) (fuel : nat) (r : reader) : list item * fate :=
  match fuel with
  | 0 => ([], FMore)
  | S n =>
      match read_item c known r with
      | Ok (Some i, r') => let (l, e) := drain c known n r' in (i :: l, e)
      | Ok (None, _) => ([], FEnd)
      | Err => ([], FErr)
      | Panic => ([], FPanic)
      end
  end.
Definition read_stream (c : codec) (known : nat -> bool) (fuel : nat) (inp : list Z) : list item * fate :=
  match try_reader c inp with Ok r => drain c known fuel r | Err => ([], FErr) | Panic => ([], FPanic) end.

(** array_stream, 134-160 (and 162-188): batches until the message kind changes. *)
Fixpoint array_stream (c : codec) (known : nat -> bool) (fuel : nat) (r : reader) : list (nat * atree) * result (option reader) :=
  match fuel with
  | 0 => ([], Ok None)
  | S n =>
      match maybe_read_chunk c known r with
      | Ok (Some x, r') => let (l, e) := array_stream c known n r' in (x :: l, e)
      | Ok (None, r') => ([], Ok (Some r'))
      | Err => ([], Err)
      | Panic => ([], Panic)
      end
  end.

(** * Proofs: array trees *)

Section AtreeInd.
  Variable P : atree -> Prop.
  Hypothesis H : forall e m s b c, Forall P c -> P (Node e m s b c).
  Fixpoint atree_ind' (t : atree) : P t :=
    match t with
    | Node e m s b c => H e m s b c ((fix go (l : list atree) : Forall P l := match l with [] => Forall_nil _ | x :: r => Forall_cons _ (atree_ind' x) (go r) end) c)
    end.
End AtreeInd.

(** The nodes of a tree from the root, each before its children (an independent description of the traversal). *)
Fixpoint preorder (t : atree) : list atree := match t with Node _ _ _ _ c => t :: flat_map (fun f => f) (map preorder c) end.

Lemma flat_map_id {A B} (f : A -> list B) l : flat_map (fun g => g) (map f l) = flat_map f l.
Proof. induction l; cbn; congruence. Qed.
Lemma nodes_pos t : 1 <= nodes t.
Proof. destruct t. cbn [nodes]. lia. Qed.
Lemma dfs_ok n : forall st, list_sum (map nodes st) <= n -> dfs_iter n st = flat_map preorder st.
Proof.
  induction n as [|n IH]; intros [|t r] H; cbn [dfs_iter]; try reflexivity.
  - change (list_sum (map nodes (t :: r))) with (nodes t + list_sum (map nodes r)) in H. pose proof (nodes_pos t). lia.
  - change (list_sum (map nodes (t :: r))) with (nodes t + list_sum (map nodes r)) in H. destruct t as [e m s b c]. cbn [a_ch].
    rewrite IH by (rewrite map_app, list_sum_app; cbn [nodes] in H; lia). rewrite flat_map_app. cbn [flat_map preorder]. rewrite flat_map_id. reflexivity.
Qed.
Theorem depth_first_is_preorder t : depth_first t = preorder t.
Proof. unfold depth_first. rewrite dfs_ok by (change (list_sum (map nodes [t])) with (nodes t + 0); lia). cbn [flat_map]. apply app_nil_r. Qed.

Lemma all_buffers_node e m s b c : all_buffers (Node e m s b c) = opt_list b ++ flat_map all_buffers c.
Proof.
  unfold all_buffers. rewrite depth_first_is_preorder. cbn [preorder flat_map a_buf]. f_equal. rewrite flat_map_id.
  induction c as [|x r IH]; [reflexivity|]. cbn [flat_map]. rewrite flat_map_app, IH, depth_first_is_preorder. reflexivity.
Qed.
Lemma nbuf_ok t : nbuf t = length (all_buffers t).
Proof.
  induction t as [e m s b c IH] using atree_ind'. rewrite all_buffers_node, app_length. cbn [nbuf].
  assert (list_sum (map nbuf c) = length (flat_map all_buffers c)) as ->.
  { induction IH as [|x r Hx Hr IHr]; [reflexivity|]. change (list_sum (map nbuf (x :: r))) with (nbuf x + list_sum (map nbuf r)). cbn [flat_map]. rewrite app_length. lia. }
  destruct b; cbn; lia.
Qed.

Definition fb_go := fix go (l : list atree) (o : nat) : list fbtree := match l with [] => [] | x :: r => to_fb x o :: go r (o + nbuf x) end.
Lemma view_ok t : forall pre post, view (pre ++ all_buffers t ++ post) (to_fb t (length pre)) = Ok t.
Proof.
  induction t as [e m s b c IH] using atree_ind'. intros pre post. rewrite all_buffers_node. cbn [to_fb view]. fold fb_go.
  assert (forall bs, match (match b with Some _ => Some (length pre) | None => None end) with
          | None => Ok None | Some i => match nth_error (pre ++ (opt_list b ++ flat_map all_buffers c) ++ post) i with Some x => Ok (Some x) | None => bs end end = Ok b) as E.
  { intros bs. destruct b as [x|]; [|reflexivity]. rewrite nth_error_app2 by lia. rewrite Nat.sub_diag. reflexivity. }
  rewrite E. cbn [bind].
  assert (forall pre', mapM (fun g => g) (map (view (pre' ++ flat_map all_buffers c ++ post)) (fb_go c (length pre'))) = Ok c) as E2.
  { clear E. clear pre. induction IH as [|x r Hx Hr IHr]; intros pre'; [reflexivity|]. cbn [fb_go map mapM flat_map].
    rewrite <- app_assoc. rewrite (Hx pre' (flat_map all_buffers r ++ post)). cbn [bind].
    specialize (IHr (pre' ++ all_buffers x)). rewrite app_length, <- nbuf_ok, <- app_assoc in IHr. rewrite IHr. reflexivity. }
  specialize (E2 (pre ++ opt_list b)). rewrite app_length in E2. replace (length (opt_list b)) with (has_buf b) in E2 by (destruct b; reflexivity).
  rewrite <- !app_assoc in *. rewrite E2. reflexivity.
Qed.

(** C35: writing the tree and its buffers and viewing them back gives the same tree, every node with its own buffer. *)
Theorem array_tree_round_trip : forall t : atree, view (all_buffers t) (to_fb t 0) = Ok t.
Proof. intros t. pose proof (view_ok t [] []) as H. rewrite app_nil_r in H. exact H. Qed.
Print Assumptions array_tree_round_trip.

(** Only the buffers of the tree are used, each once, in the order of the traversal. *)
Fixpoint fb_indices (f : fbtree) : list nat := match f with FNode _ _ _ bi c => opt_list bi ++ flat_map (fun g => g) (map fb_indices c) end.
Theorem buffer_indices_are_consecutive : forall (t : atree) (off : nat), fb_indices (to_fb t off) = seq off (length (all_buffers t)).
Proof.
  induction t as [e m s b c IH] using atree_ind'. intros off. cbn [to_fb fb_indices]. fold fb_go. rewrite all_buffers_node, app_length, seq_app, flat_map_id.
  replace (length (opt_list b)) with (has_buf b) by (destruct b; reflexivity). f_equal; [destruct b; reflexivity|].
  generalize (off + has_buf b). induction IH as [|x r Hx Hr IHr]; intros o; [reflexivity|]. cbn [fb_go flat_map]. rewrite Hx, app_length, seq_app, IHr, nbuf_ok. reflexivity.
Qed.
Print Assumptions buffer_indices_are_consecutive.

Example tree_example :
  let t := Node 1 [7]%Z [] None [Node 2 [] [] (Some [1; 2]%Z) [Node 3 [] [] (Some []) []]; Node 4 [] [9]%Z None []; Node 2 [] [] (Some [5]%Z) []] in
  all_buffers t = [[1; 2]%Z; []; [5]%Z] /\
  to_fb t 0 = FNode 1 [7]%Z [] None [FNode 2 [] [] (Some 0) [FNode 3 [] [] (Some 1) []]; FNode 4 [] [9]%Z None []; FNode 2 [] [] (Some 2) []].
Proof. split; reflexivity. Qed.
