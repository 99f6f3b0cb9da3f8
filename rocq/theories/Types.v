(** * Types: the types and signatures of the library, and histories that type check.

    [exec] (Program.v) decides at run time, from the matrices in the table, whether
    a method exists. Here the types of the library are written down without any
    run-time value, with the signature of each method as a partial function of
    types. [check] types a whole history before it runs. *)

From Verif Require Import Machine Layouts Memory Matrix MatMul ExprSpec ProductSpec Program.
Local Open Scope N_scope.

(** The types that implement [LayoutType]: layouts/*.rs. *)
Inductive layout_type :=
| TRowMajor | TColumnMajor | TRowVector | TColumnVector | TUpperTriangular
| TStrideRowMajor | TStrideColumnMajor | TStrideRowVector | TStrideColumnVector.

(** The types that implement [DataContainer]: data_container.rs:80-96. The length of
    an array is part of its type. *)
Inductive container_type := TVector | TArray (n : N) | TSlice | TSliceMut.

(** The types of matrices: matrix.rs:41-43 (references), 46-51 (base matrices),
    matrix_ref.rs:52-64, scalar_mult.rs:18-35, addition.rs:15-37. *)
Inductive matrix_type :=
| TBase (c : container_type) (l : layout_type) (rs cs : size_id)
| TRef (t : matrix_type)
| TRefMut (t : matrix_type)
| TScalarMult (t : matrix_type)
| TAddition (b : layout_type) (t u : matrix_type).

(** [LayoutType::IndexLayout]: row_major.rs:22, column_major.rs:22, row_vector.rs:21,
    column_vector.rs:21, arbitrary_stride_row_major.rs:24, arbitrary_stride_column_major.rs:25,
    arbitrary_stride_row_vector.rs:26, arbitrary_stride_column_vector.rs:26, upper_triangular.rs:22. *)
Definition index_type (l : layout_type) : layout_type :=
  match l with
  | TRowMajor | TStrideRowMajor => TRowMajor
  | TColumnMajor | TStrideColumnMajor => TColumnMajor
  | TRowVector | TStrideRowVector => TRowVector
  | TColumnVector | TStrideColumnVector => TColumnVector
  | TUpperTriangular => TUpperTriangular
  end.

(** The parameter [L] of a matrix type, [Layout::Impl]: base_matrix.rs:100, common_impl.rs:15,
    matrix_ref.rs:91, scalar_mult.rs:77, addition.rs:88. *)
Fixpoint layout_of (t : matrix_type) : layout_type :=
  match t with
  | TBase _ l _ _ => l
  | TRef t | TRefMut t | TScalarMult t => layout_of t
  | TAddition b _ _ => b
  end.

(** The parameters [RS] and [CS], [SizeType]: base_matrix.rs:116-117, matrix_ref.rs:108-109,
    scalar_mult.rs:65-66, addition.rs:106-107. *)
Fixpoint sizes_of (t : matrix_type) : size_id * size_id :=
  match t with
  | TBase _ _ rs cs => (rs, cs)
  | TRef t | TRefMut t | TScalarMult t => sizes_of t
  | TAddition _ t _ => sizes_of t
  end.

(** [DataContainerMut]: data_container.rs:153, 179, 221. *)
Definition mutable_container (c : container_type) : bool :=
  match c with TSlice => false | _ => true end.

(** [RandomAccessMut]: random_access.rs:62-68 from [UnsafeRandomAccessMut] (base_matrix.rs:160-181,
    matrix_ref.rs:140-159, common_impl.rs:54-73). *)
Fixpoint writable_type (t : matrix_type) : bool :=
  match t with
  | TBase c _ _ _ => mutable_container c
  | TRefMut t => writable_type t
  | _ => false
  end.

(** [StridedLayoutType]: row_major.rs:72, column_major.rs:72, row_vector.rs:81, column_vector.rs:81,
    arbitrary_stride_row_major.rs:68, arbitrary_stride_column_major.rs:69,
    arbitrary_stride_row_vector.rs:69, arbitrary_stride_column_vector.rs:69; not for [UpperTriangular]. *)
Definition strided_layout_type (l : layout_type) : bool :=
  match l with TUpperTriangular => false | _ => true end.

(** The types that implement [BaseLayoutType] by their names in calls. *)
Definition kind_type (k : base_kind) : layout_type :=
  match k with
  | KRowMajor => TRowMajor | KColumnMajor => TColumnMajor | KRowVector => TRowVector
  | KColumnVector => TColumnVector | KUpperTriangular => TUpperTriangular
  end.

(** The type of a layout. *)
Definition type_of_layout (l : layout) : layout_type :=
  match l with
  | RowMajor _ => TRowMajor | ColumnMajor _ => TColumnMajor
  | RowVector _ => TRowVector | ColumnVector _ => TColumnVector
  | UpperTriangular _ => TUpperTriangular
  | ArbitraryStrideRowMajor _ _ => TStrideRowMajor
  | ArbitraryStrideColumnMajor _ _ => TStrideColumnMajor
  | ArbitraryStrideRowVector _ _ => TStrideRowVector
  | ArbitraryStrideColumnVector _ _ => TStrideColumnVector
  end.

(** What a call returns. *)
Inductive return_type :=
| TUnit
| TItem
| TPair                                  (* (usize, usize) *)
| TUsize
| TLoop                                  (* unit, and the final state of the closure *)
| TMatrices (ts : list matrix_type).

(** The matrices returned. *)
Definition returned (r : return_type) : list matrix_type :=
  match r with TMatrices ts => ts | _ => [] end.

(** The instances of the macro [block_matrix]: matrix_slices.rs:146-159. *)
Definition block_type (l : layout_type) : option layout_type :=
  match l with
  | TRowMajor | TStrideRowMajor => Some TStrideRowMajor
  | TColumnMajor | TStrideColumnMajor => Some TStrideColumnMajor
  | _ => None
  end.

Definition slice_type (mut : bool) : container_type := if mut then TSliceMut else TSlice.
Definition order_type (o : order) : layout_type :=
  match o with ByRow => TRowMajor | ByColumn => TColumnMajor end.
Definition stride_order_type (o : order) : layout_type :=
  match o with ByRow => TStrideRowMajor | ByColumn => TStrideColumnMajor end.

(** An operand, by value or turned into a [MatrixRef]. *)
Definition passed_type (p : passed) (t : matrix_type) : matrix_type :=
  match p with ByValue => t | ByReference => TRef t end.

(** Equality of types. *)
Definition layout_type_eqb (a b : layout_type) : bool :=
  match a, b with
  | TRowMajor, TRowMajor | TColumnMajor, TColumnMajor | TRowVector, TRowVector
  | TColumnVector, TColumnVector | TUpperTriangular, TUpperTriangular
  | TStrideRowMajor, TStrideRowMajor | TStrideColumnMajor, TStrideColumnMajor
  | TStrideRowVector, TStrideRowVector | TStrideColumnVector, TStrideColumnVector => true
  | _, _ => false
  end.

(** The type parameters of a base matrix, if the type is one and, for [mut], if its
    container is mutable: [GenericBaseMatrix] and [GenericBaseMatrixMut]. *)
Definition base_type (ts : list matrix_type) (mut : bool) (x : nat)
    : option (layout_type * (size_id * size_id)) :=
  match nth_error ts x with
  | Some (TBase c l rs cs) => if negb mut || mutable_container c then Some (l, (rs, cs)) else None
  | _ => None
  end.

(** The sizes and the layout of the three kinds of [dot]: matrix_multiply.rs:61-153. *)
Definition dot_type (shape : dot_shape) : (size_id * size_id) * (size_id * size_id) * matrix_type :=
  match shape with
  | MatrixMatrix => ((Dynamic, Dynamic), (Dynamic, Dynamic), TBase TVector TRowMajor Dynamic Dynamic)
  | RowMatrix => ((Fixed1, Dynamic), (Dynamic, Dynamic), TBase TVector TRowVector Fixed1 Dynamic)
  | MatrixColumn => ((Dynamic, Dynamic), (Dynamic, Fixed1), TBase TVector TColumnVector Dynamic Fixed1)
  end.

Section Types.
Context {T : Type} {SC : HScalar T} {St : Type}.

(** The type of a container and of a matrix; the only numbers in it are the lengths
    of arrays. *)
Definition type_of_container (c : container) : container_type :=
  match c_kind c with
  | VectorContainer => TVector
  | ArrayContainer => TArray (r_len (c_region c))
  | SliceContainer => TSlice
  | SliceContainerMut => TSliceMut
  end.

Definition type_of_base (b : base_matrix) : matrix_type :=
  TBase (type_of_container (bm_data b)) (type_of_layout (bm_layout b)) (bm_rs b) (bm_cs b).

Fixpoint type_of (x : matrix T) : matrix_type :=
  match x with
  | MBase b => type_of_base b
  | MRef x => TRef (type_of x)
  | MRefMut x => TRefMut (type_of x)
  | MScalarMult x _ => TScalarMult (type_of x)
  | MAddition x y l => TAddition (type_of_layout l) (type_of x) (type_of y)
  end.

(** The types of the matrices of a state. *)
Definition types (st : state T) : list matrix_type := map type_of (st_mats st).

(** The signatures; [None] if the method does not exist for the types of the operands.
    The citations are those of [exec], together with the [impl] headers of the functions. *)
Definition signature (ts : list matrix_type) (o : call T St) : option return_type :=
  let one t := Some (TMatrices [t]) in
  let operand x := nth_error ts x in
  match o with
  | CZeros k _ _ => one (TBase TVector (kind_type k) Dynamic Dynamic)        (* constructors.rs:70-74 *)
  | CZerosFixed rs cs k =>                                                   (* constructors.rs:14-24, 47-63 *)
      when (is_fixed_instance rs cs k) (one (TBase (TArray (size_N rs * size_N cs)) (kind_type k) rs cs))
  | CZerosFixedVector rs cs k n =>                                           (* constructors.rs:37-40, 65-68 *)
      when (is_fixed_vector_instance rs cs k n) (one (TBase (TArray n) (kind_type k) rs cs))
  | CRowZeros _ | CRowZerosDim _ _ =>                                        (* matrix.rs:79-80 *)
      one (TBase TVector TRowVector Fixed1 Dynamic)
  | CColumnZeros _ | CColumnZerosDim _ _ =>                                  (* matrix.rs:74-75 *)
      one (TBase TVector TColumnVector Dynamic Fixed1)
  | CFromVector rs cs _ l => one (TBase TVector (type_of_layout l) rs cs)    (* matrix.rs:136-144 *)
  | CFromArray rs cs n l =>
      when (n * Npos ssize <=? isize_max) (one (TBase (TArray n) (type_of_layout l) rs cs))
  | CFromSlice mut x _ _ rs cs l =>
      typed (base_type ts mut x) (fun _ => one (TBase (slice_type mut) (type_of_layout l) rs cs))
  | CFromPointer mut o x _ _ =>                                              (* constructors.rs:168-190 *)
      typed (base_type ts mut x) (fun _ => one (TBase (slice_type mut) (order_type o) Dynamic Dynamic))
  | CFromPointerStrided mut o x _ _ _ =>                                     (* constructors.rs:132-162 *)
      typed (base_type ts mut x) (fun _ => one (TBase (slice_type mut) (stride_order_type o) Dynamic Dynamic))
  | CGet x _ _ | CGet1d x _ | CGetUnchecked x _ _ | CGet1dUnchecked x _ =>   (* random_access.rs:44-60 *)
      typed (operand x) (fun _ => Some TItem)
  | CSet x _ _ _ | CSet1d x _ _ | CSetUnchecked x _ _ _ | CSet1dUnchecked x _ _ =>
      typed (operand x) (fun t => when (writable_type t) (Some TUnit))
  | CSliceRead x _ _ _ => typed (base_type ts false x) (fun _ => Some TItem) (* base_methods.rs:29-53 *)
  | CSliceWrite x _ _ _ _ => typed (base_type ts true x) (fun _ => Some TUnit) (* base_methods.rs:58-81 *)
  | CDim x => typed (operand x) (fun _ => Some TPair)                        (* common_impl.rs:92-101 *)
  | CLength x =>                                                             (* common_impl.rs:106-122 *)
      typed (operand x) (fun t =>
        when (sizes_eqb (sizes_of t) (Fixed1, Dynamic) || sizes_eqb (sizes_of t) (Dynamic, Fixed1))
          (Some TUsize))
  | CBlock mut x _ _ =>                                                      (* matrix_slices.rs:10-52 *)
      typed (base_type ts mut x) (fun '(l, s) => when (sizes_eqb s (Dynamic, Dynamic))
        (typed (block_type l) (fun l' => one (TBase (slice_type mut) l' Dynamic Dynamic))))
  | CSplit x _ =>                                                            (* matrix_slices.rs:76-97, 161 *)
      typed (base_type ts true x) (fun '(l, s) =>
        when (sizes_eqb s (Dynamic, Dynamic) && layout_type_eqb l TRowMajor)
          (let t := TBase TSliceMut TStrideRowMajor Dynamic Dynamic in Some (TMatrices [t; t; t; t])))
  | CFromRef x => typed (operand x) (fun t => one (TRef t))                  (* matrix.rs:129-131 *)
  | CRefMut x => typed (operand x) (fun t => one (TRefMut t))                (* matrix_ref.rs:66-76 *)
  | CScalarTimes _ p x | CTimesScalar p x _ =>                               (* scalar_mult.rs:108-161 *)
      typed (operand x) (fun t => one (TScalarMult (passed_type p t)))
  | CPlus p q x y =>                                                         (* addition.rs:138-220 *)
      typed (operand x) (fun t => typed (operand y) (fun u =>
        when (layout_type_eqb (index_type (layout_of t)) (index_type (layout_of u)) &&
              sizes_eqb (sizes_of t) (sizes_of u))
          (one (TAddition (index_type (layout_of t)) (passed_type p t) (passed_type q u)))))
  | CEval x =>                                                               (* common_impl.rs:75-79 *)
      typed (operand x) (fun t => when (sizes_eqb (sizes_of t) (Dynamic, Dynamic))
        (one (TBase TVector (index_type (layout_of t)) Dynamic Dynamic)))
  | CForEach x _ _ | CFill x _ _ =>                                          (* base_methods.rs:11-23, random.rs:14-22 *)
      typed (base_type ts true x) (fun _ => Some TLoop)
  | CMatmul _ a b _ c =>                                                     (* matrix_multiply.rs:160-198, 342-349 *)
      typed (base_type ts false a) (fun '(la, sa) => typed (base_type ts false b) (fun '(lb, sb) =>
        typed (base_type ts true c) (fun '(lc, sc) =>
          when (strided_layout_type la && strided_layout_type lb && strided_layout_type lc &&
                existsb (fun '(r1, c1, s2, s3) => sizes_eqb sa (r1, c1) && sizes_eqb sb s2 && sizes_eqb sc s3)
                  matmul_sizes)
            (Some TUnit))))
  | CDot shape a b =>                                                        (* matrix_multiply.rs:61-153 *)
      typed (base_type ts false a) (fun '(la, sa) => typed (base_type ts false b) (fun '(lb, sb) =>
        let '(s1, s2, t) := dot_type shape in
        when (strided_layout_type la && strided_layout_type lb && sizes_eqb sa s1 && sizes_eqb sb s2) (one t)))
  end.

(** The types of the table after a history, before it runs; [None] if a call does not
    type check. *)
Fixpoint check (ts : list matrix_type) (os : list (call T St)) : option (list matrix_type) :=
  match os with
  | [] => Some ts
  | o :: os => typed (signature ts o) (fun r => check (ts ++ returned r) os)
  end.

(** The result of a call is of the type. *)
Definition of_type (r : result T St) (t : return_type) : Prop :=
  match r, t with
  | RDone, TUnit | RItem _, TItem | RDim _, TPair | RLength _, TUsize | RLoop _ _, TLoop => True
  | RNew, TMatrices _ => True
  | _, _ => False
  end.

(** ** Sizes *)

(** A dimension that agrees with the compile-time size. *)
Definition fits (s : size_id) (n : N) : Prop :=
  match s with Fixed1 => n = 1 | Fixed2 => n = 2 | Fixed3 => n = 3 | Dynamic => True end.

(** The dimension of the matrix agrees with the sizes of its type. *)
Definition truthful (x : matrix T) : Prop :=
  fits (fst (sizes_of (type_of x))) (fst (mat_dim x)) /\ fits (snd (sizes_of (type_of x))) (snd (mat_dim x)).

(** [from_data] is called with a layout of the dimension its type states. *)
Definition fitting_data (o : call T St) : Prop :=
  match o with
  | CFromVector rs cs _ l | CFromArray rs cs _ l | CFromSlice _ _ _ _ rs cs l =>
      fits rs (fst (dim l)) /\ fits cs (snd (dim l))
  | _ => True
  end.

End Types.
