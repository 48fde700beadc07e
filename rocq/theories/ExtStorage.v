(** ExtensionArrayTrait::storage_array (vortex-array/src/variants.rs:266-268): the storage of extension arrays. Model (C56). *)
From Verif Require Import Base Spec Arr ArrRead ArrSlice ArrOps.

(** The data type ConstantArray gives the storage of an extension scalar, constant/variants.rs:217-226. A [VInt] or [VBytes] does not
    say how it is held; [p] is the primitive type held and [u] says whether bytes are held as a BufferString. *)
Definition payload_type (p : ptype) (u : bool) (n : bool) (x : value) : result dtype :=
  match x with
  | VBool _ => Ok (DBinary n)
  | VInt _ => Ok (DPrim p n)
  | VBytes _ => Ok (if u then DUtf8 n else DBinary n)
  | VStruct _ => Panic
  | VNull => Ok DNull
  end.
(** storage_array behind as_extension_array (variants.rs:74-81; any array without one panics in as_extension_array_unchecked):
    extension/mod.rs:59-67; constant/variants.rs:48-50, 212-233; sparse/variants.rs:43-45, 109-121; chunked/variants.rs:42-44, 110-117 with
    FromIterator, chunked/mod.rs:191-200. Date-time parts have a struct storage (encodings/datetime-parts/src/array.rs:121-134) and are
    not in [array]. *)
Fixpoint ext_storage (p : ptype) (u : bool) (a : array) {struct a} : result array :=
  match a with
  | AExt _ st => Ok st
  | AConst (DExt _ n) x len => do t <- payload_type p u n x; Ok (AConst t x len)
  | ASparse idx vals off len fill =>
      match adtype vals with
      | DExt _ _ => do s <- ext_storage p u vals; expect (try_sparse idx s len off fill)
      | _ => Panic
      end
  | AChunked (DExt _ _) cs =>
      do l <- (fix go (cs : list array) : result (list array) :=
                 match cs with [] => Ok [] | c :: r => do s <- ext_storage p u c; do l <- go r; Ok (s :: l) end) cs;
      match l with [] => Panic | s :: _ => expect (try_chunked l (adtype s)) end
  | _ => Panic
  end.

(** * Specification *)
(** [a] is an extension array all of whose parts hold values of the one storage type [t] (primitives held as [p], strings as [u]). *)
Fixpoint stores (p : ptype) (u : bool) (t : dtype) (a : array) {struct a} : Prop :=
  match a with
  | AExt _ st => adtype st = t
  | AConst (DExt _ n) x _ =>
      match x, t with
      | VInt _, DPrim q m => q = p /\ m = n
      | VBytes _, DUtf8 m => u = true /\ m = n
      | VBytes _, DBinary m => u = false /\ m = n
      | _, _ => False
      end
  | ASparse idx vals off len fill =>
      stores p u t vals /\ instance_of fill t = true /\ try_sparse idx vals len off fill = Ok a
  | AChunked (DExt _ _) cs =>
      cs <> [] /\ (fix go (l : list array) : Prop := match l with [] => True | c :: r => stores p u t c /\ go r end) cs
  | _ => False
  end.
