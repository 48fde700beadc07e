(** Which inputs of the sampling compressor the theorems of PropCompressor.v are about. *)
From Verif Require Import Base Spec Arr ArrRead ArrWf StatsModel StatsProofs PropStats PropDict Compressor.

(** Well-formed arrays that decode without failing, with faithful validity ([fr] of CmpProofs.v). *)
Definition decodable : flags := Flags false false true true true false false false false false.

(** Data types of chunked columns: no nulls-only, binary or extension columns anywhere. *)
Fixpoint plain (d : dtype) : bool :=
  match d with
  | DNull | DBinary _ | DExt _ _ => false
  | DStruct ns ts _ => (length ns =? length ts) && forallb plain ts
  | _ => true
  end.
Definition not_float (d : dtype) : bool :=
  match d with DBool _ | DUtf8 _ => true | DPrim p _ => negb (is_float p) | _ => false end.

(** Two classes of inputs: those of the theorems about every choice of encodings (C44, [careful] is false), and those of the theorems
    about the choices the compressor makes (C53, [careful] is true), which look at samples and at statistics of chunked arrays. *)
Class mode := careful : bool.
(** Arrays that can be sliced without failing ([f_dec] of PropIntEnc.v). *)
Definition sliced : flags := Flags true true true true true false false false false false.

(** Chunks of a chunked array, which rechunking decodes: floating-point chunks are primitive arrays (or chunks of them). In the
    careful class there are no dictionaries: see [compressor_loses_data_refuted]. *)
Fixpoint chunk_ok `{mode} (a : array) : Prop :=
  match a with
  | APrim _ _ _ | ABool _ _ _ _ | AByteBool _ _ | AView _ _ _ _ | AVarBin _ _ _ _ => True
  | AStruct _ fls _ _ => (fix go l := match l with [] => True | x :: r => chunk_ok x /\ go r end) fls
  | AChunked _ cs => (fix go l := match l with [] => True | x :: r => chunk_ok x /\ go r end) cs
  | ANull _ | AExt _ _ => False
  | ADict _ _ => not_float (adtype a) = true /\ careful = false
  | _ => not_float (adtype a) = true
  end.

(** The input arrays: no negative zeros in floating-point buffers (they compare equal to zero); no NullArray; strings, not
    binary; sparse arrays that are not slices; dictionaries whose codes have sound statistics (C29). In the careful class, string and sparse
    arrays can be sliced. *)
Fixpoint input_ok `{mode} (a : array) : Prop :=
  match a with
  | ANull _ => False
  | APrim p l _ => Forall (no_neg_zero p) l
  | AView u _ _ _ => u = true
  | AVarBin u _ _ _ => u = true /\ (careful = true -> wf sliced a)
  | AStruct _ fls _ _ => (fix go l := match l with [] => True | x :: r => input_ok x /\ go r end) fls
  | AChunked d cs => plain d = true /\ (fix go l := match l with [] => True | x :: r => (input_ok x /\ chunk_ok x) /\ go r end) cs
  | ASparse idx vals off _ _ => off = 0 /\ input_ok idx /\ input_ok vals /\ (careful = true -> wf sliced a)
  | ADict codes vals => st_ok KConst codes /\ adtype vals <> DNull
  | _ => True
  end.

(** Total size of the strings of the largest string column. *)
Fixpoint sbytes (a : array) : nat :=
  match a with
  | AStruct _ fls _ _ => list_max (map sbytes fls)
  | AChunked _ cs => list_sum (map sbytes cs)
  | AExt _ _ => 0
  | _ => total_bytes (str_opts (logical a))
  end.
(** Number of nested choices. *)
Fixpoint qdepth (q : plan) : nat :=
  match q with
  | PKeep | PConst => 1
  | PChunks l | PStruct l => S (list_max (map qdepth l))
  | PFoR q | PZigZag q | PBit _ q => S (qdepth q)
  | PRunEnd p q | PDict p q | PSparse p q => S (max (qdepth p) (qdepth q))
  end.
(** Sizes the formats can represent: row counts with room for one dictionary entry per nested choice; 2 GiB of strings. *)
Definition fits (q : plan) (a : array) : Prop :=
  (Z.of_nat (alen a + qdepth q) < pmax U64)%Z /\ (Z.of_nat (sbytes a) <= pmax I32)%Z.
