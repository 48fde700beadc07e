(** Queries on in-memory tables (vortex-datafusion), model (C52): which filters are pushed down, how they become Vortex expressions, and what
    the scan returns. *)
From Verif Require Import Base Spec CmpSpec ExprSpec Arr ArrRead ArrSlice ValidityModel IntEnc ArrOps DateTime Temporal Arrow StructOps Compare Layout Expr.

(** DataFusion expressions: columns by name, literals of an Arrow type, binary operators; the rest is [FOther]. Logical and physical
    expressions (create_physical_expr) are one tree. Operators without a Vortex counterpart are [OpOther]. *)
Inductive dfop := OpCmp (c : cop) | OpAnd | OpOr | OpOther (n : nat).
Inductive dfexpr := FCol (n : nat) | FLit (t : atype) (x : value) | FBin (o : dfop) (l r : dfexpr) | FOther (n : nat).

(** supported_data_types, vortex-datafusion/src/lib.rs:46-62. *)
Definition supported_type (t : atype) : bool :=
  match t with
  | TNull | TBool | TPrim _ | TUtf8 Small | TUtf8 Views | TBinary Small | TBinary Views | TDate32 | TDate64 | TTime32 _ | TTime64 _ | TTimestamp _ _ => true
  | TUtf8 Large | TBinary Large | TDuration _ | TStruct _ _ _ | TOther _ => false
  end.
(** can_be_pushed_down, lib.rs:152-168, with SUPPORTED_BINARY_OPS, 37-44; is_logic_operator is And or Or. *)
Fixpoint can_be_pushed_down (sch : list (nat * atype)) (e : dfexpr) : bool :=
  match e with
  | FBin (OpOther _) _ _ => false
  | FBin _ l r => can_be_pushed_down sch l && can_be_pushed_down sch r
  | FCol n => match find (fun nt => fst nt =? n) sch with Some (_, t) => supported_type t | None => false end
  | FLit t _ => supported_type t
  | FOther _ => false
  end.
(** From<ScalarValue> for Scalar, vortex-scalar/src/datafusion.rs:120-173: a null of any type is the untyped null; binary and temporal literals
    are nullable; unimplemented!() otherwise. *)
Definition df_scalar (t : atype) (x : value) : result (dtype * value) :=
  match t with
  | TDuration _ | TStruct _ _ _ | TOther _ => Panic
  | _ =>
      match x with
      | VNull => Ok (DNull, VNull)
      | _ =>
          do d <- match t with
                  | TBinary _ | TDate32 | TDate64 | TTime32 _ | TTime64 _ | TTimestamp _ _ => from_arrow_type t true
                  | _ => from_arrow_type t false
                  end;
          Ok (d, x)
      end
  end.
(** convert_expr_to_vortex, vortex-expr/src/datafusion.rs:12-42, and TryFrom<DFOperator>, 44-81. *)
Fixpoint convert (e : dfexpr) : result (expr field) :=
  match e with
  | FBin o l r =>
      do l' <- convert l; do r' <- convert r;
      match o with OpCmp c => Ok (EBin (BCmp c) l' r') | OpAnd => Ok (EBin BAnd l' r') | OpOr => Ok (EBin BOr l' r') | OpOther _ => Err end
  | FCol n => Ok (ECol (FName n))
  | FLit t x => do (d, y) <- df_scalar t x; Ok (ELit d y)
  | FOther _ => Err
  end.

Section Scan.
  Variable lossy : list Z -> list Z.
  (** RowIndicesStream::poll_next, plans.rs:143-184, for one chunk; [p] lists the columns the filter refers to (a HashSet: in any order).
      [as_boolean] panics on other types; [values()] are the bits, null or not. *)
  Definition row_indices (e : expr field) (p : list field) (chunk : array) : result (list nat) :=
    do s <- project p chunk;
    do m <- evaluate e s;
    do c <- canon m;
    match c with
    | ABool off buf len _ => Ok (set_indices (lslice buf off (off + len)))
    | _ => Panic
    end.
  (** TakeRowsStream::poll_next, plans.rs:317-368: [k] is chunk_idx; indices are u64. RecordBatch::from panics on a struct array with nulls. *)
  Definition take_batch (out : list field) (chunk : array) (idx : list nat) : result aarray :=
    do c <- canon chunk;
    match c with
    | AStruct _ _ _ _ =>
        do q <- project out c;
        do b <- take q U64 idx;
        to_record_batch lossy b
    | _ => Err
    end.
  Fixpoint take_rows (out : list field) (table : list array) (k : nat) (sels : list (list nat)) : result (list aarray) :=
    match sels with
    | [] => Ok []
    | idx :: rest =>
        if length table <? k then Panic
        else match out with
             | [] => do r <- take_rows out table k rest; Ok (RStruct [] [] [] (length idx) None :: r)
             | _ =>
                 match nth_error table k with
                 | None => Err
                 | Some chunk => do b <- take_batch out chunk idx; do r <- take_rows out table (S k) rest; Ok (b :: r)
                 end
             end
    end.
  (** make_filter_then_take_plan, memory.rs:196-211. The two streams alternate; a failure of either fails the query. *)
  Definition filtered_scan (table : list array) (e : expr field) (p : list field) (out : list nat) : result (list aarray) :=
    do sels <- mapM (row_indices e p) table;
    take_rows (map FIndex out) table 0 sels.
  (** VortexRecordBatchStream::poll_next, lib.rs:229-256. *)
  Definition full_scan (table : list array) (out : list nat) : result (list aarray) :=
    mapM (fun chunk =>
            do c <- canon chunk;
            match c with
            | AStruct _ _ _ _ => do q <- project (map FIndex out) c; to_record_batch lossy q
            | _ => Err
            end) table.
  (** VortexMemTable::new, memory.rs:43-61. *)
  Definition table_chunks (a : array) : list array := match a with AChunked _ cs => cs | _ => [a] end.
End Scan.
