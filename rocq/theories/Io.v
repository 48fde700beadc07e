(** Positioned readers and writers (vortex-serde/src/io). Model (C58). *)
From Verif Require Import Base Spec Arr Buf.

Definition u64_end : Z := 18446744073709551616%Z.
Definition overflows (n : nat) : bool := (u64_end <=? Z.of_nat n)%Z.

(** VortexReadAt: a slice or Vec, io/read.rs:89-120; a Buffer, 122-142; OffsetReadAt, io/offset.rs:7-35; ObjectStoreReadAt,
    io/object_store.rs:55-95, where [get] is what the store answers for a range ([None]: an error) and [size] the size it reports.
    Arc<T> and &R, read.rs:32-48 and 71-87, forward to what they hold. Files (io/tokio.rs, monoio.rs) leave everything to the system and are
    not modelled. *)
Inductive source :=
| SSlice (l : list Z)
| SBuffer (b : buffer)
| SOffset (s : source) (off : nat)
| SObject (get : nat -> nat -> option (list Z)) (size : nat).
(** read_at_into, with the length of the given buffer: read.rs:104-115, 123-137; offset.rs:20-26; object_store.rs:71-79, where copy_from_slice
    panics when the lengths differ. Sums are of 64-bit numbers: an overflow is a panic (a debug build; a release build wraps, and then
    panics too for a slice or a Buffer). *)
Fixpoint read_at (s : source) (pos n : nat) : result (list Z) :=
  match s with
  | SSlice l =>
      if overflows (n + pos) then Panic else if length l <? n + pos then Err else Ok (firstn n (skipn pos l))
  | SBuffer b =>
      if overflows (n + pos) then Panic else if buf_len b <? n + pos then Err
      else do r <- buf_slice b pos (pos + n); Ok (contents r)
  | SOffset s off => if overflows (pos + off) then Panic else read_at s (pos + off) n
  | SObject get _ =>
      if overflows (pos + n) then Panic else
      match get pos (pos + n) with None => Err | Some r => if length r =? n then Ok r else Panic end
  end.
(** size: read.rs:98-100, 117-119, 139-141; offset.rs:32-34 (a u64 subtraction: a debug build panics when it underflows); object_store.rs:81-94. *)
Fixpoint source_size (s : source) : result nat :=
  match s with
  | SSlice l => Ok (length l)
  | SBuffer b => Ok (buf_len b)
  | SOffset s off => do n <- source_size s; if n <? off then Panic else Ok (n - off)
  | SObject _ n => Ok n
  end.

(** VortexRead for Cursor<R>, read.rs:63-69: the position moves when the read succeeds. *)
Definition cursor_read (s : source) (pos n : nat) : result (list Z) * nat :=
  match read_at s pos n with Ok r => (Ok r, pos + length r) | Err => (Err, pos) | Panic => (Panic, pos) end.
(** VortexRead for BytesMut, read.rs:50-61. *)
Definition bytes_read (l : list Z) (n : nat) : result (list Z) * list Z :=
  if length l <? n then (Err, l) else (Ok (firstn n l), skipn n l).
Fixpoint cursor_reads (s : source) (pos : nat) (ns : list nat) : list (result (list Z)) :=
  match ns with [] => [] | n :: r => let '(o, pos') := cursor_read s pos n in o :: cursor_reads s pos' r end.
Fixpoint bytes_reads (l : list Z) (ns : list nat) : list (result (list Z)) :=
  match ns with [] => [] | n :: r => let '(o, l') := bytes_read l n in o :: bytes_reads l' r end.
(** ObjectStoreExt::vortex_read, object_store.rs:34-41: the range is fetched once and read by a cursor over a Buffer. *)
Definition vortex_read (get : nat -> nat -> option (list Z)) (a b : nat) (ns : list nat) : result (list (result (list Z))) :=
  match get a b with None => Err | Some r => Ok (cursor_reads (SBuffer (BBytes r)) 0 ns) end.

(** VortexWrite for Vec<u8>, io/write.rs:12-25, and ObjectStoreWriter, object_store.rs:97-134: the bytes handed to the multipart upload, until
    it is taken by shutdown, and the object there is afterwards. *)
Inductive sink := WVec (l : list Z) | WObject (multipart : option (list Z)) (object : option (list Z)).
(** A call, with what the store answers to it. *)
Inductive call := CWrite (bs : list Z) | CFlush (answer : bool) | CShutdown (answer : bool).
Definition step (w : sink) (c : call) : bool * sink :=
  match w, c with
  | WVec l, CWrite bs => (true, WVec (l ++ bs))
  | WVec l, _ => (true, WVec l)
  | WObject (Some l) o, CWrite bs => (true, WObject (Some (l ++ bs)) o)
  | WObject (Some l) o, CFlush a => (a, WObject (Some l) o)
  | WObject (Some l) o, CShutdown a => (a, WObject None (if a then Some l else o))
  | WObject None o, _ => (false, WObject None o)
  end.
Fixpoint steps (w : sink) (cs : list call) : list bool * sink :=
  match cs with [] => ([], w) | c :: r => let '(o, w') := step w c in let '(os, w'') := steps w' r in (o :: os, w'') end.
