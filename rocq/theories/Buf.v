(** Buffer, BufferString and IoBuf (vortex-buffer). Model (C57). *)
From Verif Require Import Base Spec CmpSpec Arr.

(** Buffer, vortex-buffer/src/lib.rs:25-33: the bytes, held by an Arrow buffer or by a bytes::Bytes. Alignment, sharing and
    the place in memory are not modelled. *)
Inductive buffer := BArrow (l : list Z) | BBytes (l : list Z).
(** as_slice, lib.rs:83-88 (also deref and as_ref, 117-129). *)
Definition contents (b : buffer) : list Z := match b with BArrow l | BBytes l => l end.
(** len, lib.rs:46-51; is_empty, 54-59. *)
Definition buf_len (b : buffer) : nat := match b with BArrow l => length l | BBytes l => length l end.
Definition buf_is_empty (b : buffer) : bool := match b with BArrow l => length l =? 0 | BBytes l => length l =? 0 end.
(** from_len_zeroed, lib.rs:41-43. *)
Definition from_len_zeroed (n : nat) : buffer := BArrow (repeat 0%Z n).
(** From<&[u8]>, From<Vec<u8>>, From<ArrowBuffer>, From<ArrowMutableBuffer>, lib.rs:131-161; From<Bytes>, 145-149. *)
Definition buf_of_slice (l : list Z) : buffer := BArrow l.
Definition buf_of_bytes (l : list Z) : buffer := BBytes l.

(** slice, lib.rs:63-79. [range.end - range.start] underflows when the range is reversed: a panic in a debug build; in a release build
    the length wraps to more than any buffer holds, and arrow's slice_with_length asserts
    [offset.saturating_add(length) <= self.length]. bytes::Bytes::slice asserts [begin <= end] and [end <= len]; truncate(0) keeps the
    (empty) front. *)
Definition buf_slice (b : buffer) (s e : nat) : result buffer :=
  match b with
  | BArrow l => if e <? s then Panic else if s + (e - s) <=? length l then Ok (BArrow (lslice l s e)) else Panic
  | BBytes l => if e <=? s then Ok (BBytes (firstn 0 l)) else if e <=? length l then Ok (BBytes (lslice l s e)) else Panic
  end.

(** into_vec::<T>, lib.rs:100-106, [w] the size of T. Arrow's Buffer::into_vec gives the buffer back when the memory was not allocated as
    a Vec<T>, is shared, or does not start the allocation ([reusable] = false); otherwise it makes [length / w] elements of it. The vector
    is given here as its bytes. *)
Definition into_vec (w : nat) (reusable : bool) (b : buffer) : (list Z) + buffer :=
  match b with
  | BArrow l => if reusable then inl (firstn (length l / w * w) l) else inr (BArrow l)
  | BBytes _ => inr b
  end.
(** into_arrow, lib.rs:109-114: the bytes of the resulting Arrow buffer. *)
Definition into_arrow (b : buffer) : list Z := match b with BArrow a => a | BBytes l => l end.
(** PartialEq, lib.rs:163-167; PartialOrd, 171-175. *)
Definition buf_eq (a b : buffer) : bool := if list_eq_dec Z.eq_dec (contents a) (contents b) then true else false.
Definition buf_cmp (a b : buffer) : comparison := lex (contents a) (contents b).

(** flexbuffers::Buffer for Buffer, flexbuffers.rs:11-17. *)
Definition flex_slice (b : buffer) (s e : nat) : result (option buffer) :=
  if (buf_len b <? e) || (buf_len b <=? s) || (e <=? s) then Ok None else do r <- buf_slice b s e; Ok (Some r).

(** BufferString, string.rs:6-59: TryFrom<Buffer>, 38-45 (as flexbuffers.rs:23-25); From<String>, 32-36; as_str, 21-24. *)
Definition string_try_from (b : buffer) : result buffer := if utf8_valid (contents b) then Ok b else Err.
Definition as_str (s : buffer) : list Z := contents s.

(** IoBuf, io_buf.rs:11-33: what I/O is given. The memory the bytes of a buffer are in: [before] lies below it and [after] above it. *)
Record memory := { before : list Z; content : list Z; after : list Z }.
Definition cells (m : memory) : list Z := before m ++ content m ++ after m.
(** A buffer (static slice, array, Vec, Buffer: 49-98, 117-133) or a Slice, 35-40, of what is already an IoBuf (100-115). *)
Inductive iobuf := IoWhole | IoSlice (b : iobuf) (begin_ end_ : nat).
(** slice_owned, 23-32: no check. *)
Definition slice_owned (b : iobuf) (s e : nat) : iobuf := IoSlice b s e.
(** read_ptr, 51-53 and alike, 101-104: a position in [cells]. *)
Fixpoint read_ptr (m : memory) (b : iobuf) : nat :=
  match b with IoWhole => length (before m) | IoSlice b s _ => read_ptr m b + s end.
(** bytes_init, 56-58 and alike, 107-109: [end - begin] of two usize (a debug build panics when it underflows, a release build wraps). *)
Definition bytes_init (m : memory) (b : iobuf) : result nat :=
  match b with IoWhole => Ok (length (content m)) | IoSlice _ s e => if e <? s then Panic else Ok (e - s) end.
(** as_slice, 61-63 and alike; for a Slice, 112-114, std::slice::from_raw_parts(read_ptr, bytes_init): whatever is in memory there. *)
Definition io_as_slice (m : memory) (b : iobuf) : result (list Z) :=
  do n <- bytes_init m b; Ok (firstn n (skipn (read_ptr m b) (cells m))).
(** into_inner, 44-46. *)
Definition into_inner (b : iobuf) : iobuf := match b with IoSlice b _ _ => b | _ => b end.
