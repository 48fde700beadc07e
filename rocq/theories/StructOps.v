(** Struct columns and projections: the struct view of arrays (variants.rs). Model (C50). *)
From Verif Require Import Base Spec Arr ArrRead ArrWf ArrSlice ArrOps Layout.

(** Option chaining inside [result]. *)
Definition and_then {A B} (r : result (option A)) (k : A -> result (option B)) : result (option B) :=
  do o <- r; match o with Some x => k x | None => Ok None end.
Fixpoint all_some {A} (l : list (result (option A))) : result (option (list A)) :=
  match l with
  | [] => Ok (Some [])
  | r :: q => and_then r (fun x => and_then (all_some q) (fun xs => Ok (Some (x :: xs))))
  end.
(** [.ok()?] *)
Definition ok_or_none {A} (r : result A) : result (option A) := match r with Ok x => Ok (Some x) | Err => Ok None | Panic => Panic end.
(** StructScalar::field_by_idx, vortex-scalar/src/struct_.rs:36-48: the value; [st.dtypes()[idx]] panics. None for a null and for a value
    that is not a list (try_new fails, 17-25). *)
Definition scalar_field (ts : list dtype) (x : value) (i : nat) : result (option (dtype * value)) :=
  match x with
  | VStruct vs => match nth_error vs i with
                  | None => Ok None
                  | Some y => match nth_error ts i with Some t => Ok (Some (t, y)) | None => Panic end
                  end
  | _ => Ok None
  end.
(** StructScalar::try_new and project, struct_.rs:17-25, 99-125. *)
Definition scalar_project (ns : list nat) (ts : list dtype) (x : value) (p : list field) : result (list nat * list dtype * value) :=
  match x with
  | VStruct vs =>
      do (ns', ts') <- struct_project ns ts p;
      do ys <- mapM (fun f => do i <- expect (resolve_field ns f); match nth_error vs i with Some y => Ok y | None => Panic end) p;
      Ok (ns', ts', VStruct ys)
  | VNull => do (ns', ts') <- struct_project ns ts p; Ok (ns', ts', VNull)
  | _ => Err
  end.

(** StructArrayTrait::field: struct_/mod.rs:149-156, constant/variants.rs:194-199, sparse/variants.rs:67-86, chunked/variants.rs:66-83.
    None for any other array (as_struct_array gives None). *)
Fixpoint field (a : array) (i : nat) : result (option array) :=
  match a with
  | AStruct _ fls _ _ => Ok (nth_error fls i)
  | AConst (DStruct _ ts _) x n => and_then (scalar_field ts x i) (fun '(t, y) => Ok (Some (AConst t y n)))
  | ASparse idx vals off len fill =>
      match adtype vals with
      | DStruct _ ts _ =>
          and_then (field vals i) (fun c => and_then (scalar_field ts fill i) (fun '(_, y) => ok_or_none (try_sparse idx c len off y)))
      | _ => Ok None
      end
  | AChunked d cs =>
      match d with
      | DStruct _ ts _ =>
          and_then (all_some (map (fun c => field c i) cs)) (fun l =>
            match nth_error ts i with None => Ok None | Some t => do r <- expect (try_chunked l t); Ok (Some r) end)
      | _ => Ok None
      end
  | _ => Ok None
  end.
(** field_by_name, variants.rs:243-250. *)
Definition field_by_name (a : array) (n : nat) : result (option array) :=
  match adtype a with DStruct ns _ _ => match position ns n with Some i => field a i | None => Ok None end | _ => Panic end.
(** StructArrayTrait::project: struct_/mod.rs:111-138, constant/variants.rs:201-207, sparse/variants.rs:88-104, chunked/variants.rs:85-105. *)
Fixpoint project (p : list Layout.field) (a : array) : result array :=
  match a with
  | AStruct ns fls n v =>
      do l <- mapM (fun f => do i <- resolve_field ns f;
                             match nth_error ns i with
                             | None => Panic
                             | Some m => match nth_error fls i with Some c => Ok (m, c) | None => Err end
                             end) p;
      try_struct (map fst l) (map snd l) n v
  | AConst (DStruct ns ts nl) x n => do (ns', ts', y) <- scalar_project ns ts x p; Ok (AConst (DStruct ns' ts' nl) y n)
  | ASparse idx vals off len fill =>
      match adtype vals with
      | DStruct ns ts _ =>
          do c <- project p vals;
          do (_, _, y) <- scalar_project ns ts fill p;
          try_sparse idx c len off y
      | _ => Err
      end
  | AChunked d cs =>
      match d with
      | DStruct ns ts nl =>
          do l <- mapM (fun r => r) (map (project p) cs);
          do (ns', ts') <- struct_project ns ts p;
          try_chunked l (DStruct ns' ts' nl)
      | _ => Err
      end
  | _ => Err
  end.
