(** * Layouts: the nine memory layouts of /repo/src/layouts.

    One Gallina function per method of the traits [LayoutType],
    [BaseLayoutType] and [VectorBaseLayoutType] (/repo/src/traits/layout.rs:84-134);
    each arm of a match cites the Rust method it models. The operations are
    performed in the order of the Rust expression. *)

From Coq Require Import NArith.
From Verif Require Import Machine F64.
Local Open Scope N_scope.

(** The layout types; a pair is a Rust [(IndexType, IndexType)]. *)
Inductive layout :=
| RowMajor (dim : N * N)                                  (* row_major.rs:11-13 *)
| ColumnMajor (dim : N * N)                               (* column_major.rs:11-13 *)
| RowVector (dim : N)                                     (* row_vector.rs:10-12 *)
| ColumnVector (dim : N)                                  (* column_vector.rs:10-12 *)
| ArbitraryStrideRowMajor (dim stride : N * N)            (* arbitrary_stride_row_major.rs:12-15 *)
| ArbitraryStrideColumnMajor (dim stride : N * N)         (* arbitrary_stride_column_major.rs:13-16 *)
| ArbitraryStrideRowVector (dim stride : N)               (* arbitrary_stride_row_vector.rs:14-17 *)
| ArbitraryStrideColumnVector (dim stride : N)            (* arbitrary_stride_column_vector.rs:14-17 *)
| UpperTriangular (dim : N).                              (* upper_triangular.rs:11-13 *)

(** The base layout types, i.e. the possible values of the associated type
    [LayoutType::IndexLayout] (traits/layout.rs:106-108, 84-87). *)
Inductive base_kind := KRowMajor | KColumnMajor | KRowVector | KColumnVector | KUpperTriangular.

(** [LayoutType::dim]. *)
Definition dim (l : layout) : N * N :=
  match l with
  | RowMajor d => d                                       (* row_major.rs:45-47 *)
  | ColumnMajor d => d                                    (* column_major.rs:45-47 *)
  | RowVector n => (1, n)                                 (* row_vector.rs:44-46 *)
  | ColumnVector n => (n, 1)                              (* column_vector.rs:44-46 *)
  | ArbitraryStrideRowMajor d _ => d                      (* arbitrary_stride_row_major.rs:48-50 *)
  | ArbitraryStrideColumnMajor d _ => d                   (* arbitrary_stride_column_major.rs:49-51 *)
  | ArbitraryStrideRowVector n _ => (1, n)                (* arbitrary_stride_row_vector.rs:49-51 *)
  | ArbitraryStrideColumnVector n _ => (n, 1)             (* arbitrary_stride_column_vector.rs:49-51 *)
  | UpperTriangular n => (n, n)                           (* upper_triangular.rs:56-58 *)
  end.

(** [LayoutType::stride]. *)
Definition stride (l : layout) : outcome (N * N) :=
  match l with
  | RowMajor d => Ok (snd d, 1)                           (* row_major.rs:50-52 *)
  | ColumnMajor d => Ok (1, fst d)                        (* column_major.rs:50-52 *)
  | RowVector _ => Ok (1, 1)                              (* row_vector.rs:49-51 *)
  | ColumnVector _ => Ok (1, 1)                           (* column_vector.rs:49-51 *)
  | ArbitraryStrideRowMajor d _ => Ok (snd d, 1)          (* arbitrary_stride_row_major.rs:53-55 *)
  | ArbitraryStrideColumnMajor d _ => Ok (1, fst d)       (* arbitrary_stride_column_major.rs:54-56 *)
  | ArbitraryStrideRowVector _ s => Ok (1, s)             (* arbitrary_stride_row_vector.rs:54-56 *)
  | ArbitraryStrideColumnVector _ s => Ok (s, 1)          (* arbitrary_stride_column_vector.rs:54-56 *)
  | UpperTriangular _ => Panic                            (* upper_triangular.rs:71-73: unimplemented! *)
  end.

(** [LayoutType::number_of_elements]. *)
Definition number_of_elements (m : mode) (l : layout) : outcome N :=
  match l with
  | RowMajor d => umul m (fst d) (snd d)                  (* row_major.rs:55-57 *)
  | ColumnMajor d => umul m (fst d) (snd d)               (* column_major.rs:55-57 *)
  | RowVector n => Ok n                                   (* row_vector.rs:54-56 *)
  | ColumnVector n => Ok n                                (* column_vector.rs:54-56 *)
  | ArbitraryStrideRowMajor d _ => umul m (fst d) (snd d) (* arbitrary_stride_row_major.rs:58-60 *)
  | ArbitraryStrideColumnMajor d _ => umul m (fst d) (snd d) (* arbitrary_stride_column_major.rs:59-61 *)
  | ArbitraryStrideRowVector n _ => Ok n                  (* arbitrary_stride_row_vector.rs:59-61 *)
  | ArbitraryStrideColumnVector n _ => Ok n               (* arbitrary_stride_column_vector.rs:59-61 *)
  | UpperTriangular n =>                                  (* upper_triangular.rs:66-68 *)
      n1 <- uadd m n 1 ;; x <- umul m n n1 ;; udiv x 2
  end.

(** Row-major 1d to 2d: row_major.rs:25-27, arbitrary_stride_row_major.rs:27-29. *)
Definition row_major_1d_2d (d : N * N) (index : N) : outcome (N * N) :=
  q <- udiv index (snd d) ;; r <- urem index (snd d) ;; Ok (q, r).

(** Column-major 1d to 2d: column_major.rs:25-27, arbitrary_stride_column_major.rs:28-30. *)
Definition column_major_1d_2d (d : N * N) (index : N) : outcome (N * N) :=
  r <- urem index (fst d) ;; q <- udiv index (fst d) ;; Ok (r, q).

(** Row-major 2d to 1d: row_major.rs:30-32, arbitrary_stride_row_major.rs:32-34. *)
Definition row_major_2d_1d (m : mode) (d : N * N) (row col : N) : outcome N :=
  x <- umul m row (snd d) ;; uadd m x col.

(** Column-major 2d to 1d: column_major.rs:30-32, arbitrary_stride_column_major.rs:33-35. *)
Definition column_major_2d_1d (m : mode) (d : N * N) (row col : N) : outcome N :=
  x <- umul m col (fst d) ;; uadd m x row.

(** Strided raw index: arbitrary_stride_row_major.rs:37-39,
    arbitrary_stride_column_major.rs:38-40. *)
Definition strided_raw (m : mode) (s : N * N) (row col : N) : outcome N :=
  x <- umul m (fst s) row ;; y <- umul m (snd s) col ;; uadd m x y.

(** Upper triangular 1d to 2d: upper_triangular.rs:25-32. *)
Definition upper_triangular_1d_2d (m : mode) (n index : N) : outcome (N * N) :=
  let p := ut_p index in
  a <- usub m n 1 ;; row <- usub m a p ;;
  b <- usub m n 1 ;; c <- usub m b p ;; e <- uadd m c index ;;
  p1 <- uadd m p 1 ;; pp <- umul m p p1 ;; t <- udiv pp 2 ;;
  col <- usub m e t ;;
  Ok (row, col).

(** Upper triangular 2d to 1d: upper_triangular.rs:40-48. *)
Definition upper_triangular_2d_1d (m : mode) (n row col : N) : outcome N :=
  _ <- assert_ (row <=? col) ;;
  a <- usub m n row ;;
  b <- usub m n row ;; c <- usub m b 1 ;;
  ac <- umul m a c ;; t <- udiv ac 2 ;;
  u <- uadd m t col ;; usub m u row.

(** [LayoutType::convert_1d_2d]. *)
Definition convert_1d_2d (m : mode) (l : layout) (index : N) : outcome (N * N) :=
  match l with
  | RowMajor d => row_major_1d_2d d index
  | ColumnMajor d => column_major_1d_2d d index
  | RowVector _ => Ok (1, index)                          (* row_vector.rs:24-26 *)
  | ColumnVector _ => Ok (index, 1)                       (* column_vector.rs:24-26 *)
  | ArbitraryStrideRowMajor d _ => row_major_1d_2d d index
  | ArbitraryStrideColumnMajor d _ => column_major_1d_2d d index
  | ArbitraryStrideRowVector _ _ => Ok (1, index)         (* arbitrary_stride_row_vector.rs:29-31 *)
  | ArbitraryStrideColumnVector _ _ => Ok (index, 1)      (* arbitrary_stride_column_vector.rs:29-31 *)
  | UpperTriangular n => upper_triangular_1d_2d m n index
  end.

(** [LayoutType::convert_2d_1d]. *)
Definition convert_2d_1d (m : mode) (l : layout) (row col : N) : outcome N :=
  match l with
  | RowMajor d => row_major_2d_1d m d row col
  | ColumnMajor d => column_major_2d_1d m d row col
  | RowVector _ => Ok col                                 (* row_vector.rs:29-31 *)
  | ColumnVector _ => Ok row                              (* column_vector.rs:29-31 *)
  | ArbitraryStrideRowMajor d _ => row_major_2d_1d m d row col
  | ArbitraryStrideColumnMajor d _ => column_major_2d_1d m d row col
  | ArbitraryStrideRowVector _ _ => Ok col                (* arbitrary_stride_row_vector.rs:34-36 *)
  | ArbitraryStrideColumnVector _ _ => Ok row             (* arbitrary_stride_column_vector.rs:34-36 *)
  | UpperTriangular n => upper_triangular_2d_1d m n row col
  end.

(** [LayoutType::convert_2d_raw]. *)
Definition convert_2d_raw (m : mode) (l : layout) (row col : N) : outcome N :=
  match l with
  | RowMajor d => row_major_2d_1d m d row col             (* row_major.rs:35-37 *)
  | ColumnMajor d => column_major_2d_1d m d row col       (* column_major.rs:35-37 *)
  | RowVector _ => Ok col                                 (* row_vector.rs:34-36 *)
  | ColumnVector _ => Ok row                              (* column_vector.rs:34-36 *)
  | ArbitraryStrideRowMajor _ s => strided_raw m s row col
  | ArbitraryStrideColumnMajor _ s => strided_raw m s row col
  | ArbitraryStrideRowVector _ s => umul m col s          (* arbitrary_stride_row_vector.rs:39-41 *)
  | ArbitraryStrideColumnVector _ s => umul m row s       (* arbitrary_stride_column_vector.rs:39-41 *)
  | UpperTriangular n => upper_triangular_2d_1d m n row col (* upper_triangular.rs:51-53, 35-37 *)
  end.

(** [LayoutType::convert_1d_raw]. *)
Definition convert_1d_raw (m : mode) (l : layout) (index : N) : outcome N :=
  match l with
  | RowMajor _ => Ok index                                (* row_major.rs:40-42 *)
  | ColumnMajor _ => Ok index                             (* column_major.rs:40-42 *)
  | RowVector _ => Ok index                               (* row_vector.rs:39-41 *)
  | ColumnVector _ => Ok index                            (* column_vector.rs:39-41 *)
  | ArbitraryStrideRowMajor d s =>                        (* arbitrary_stride_row_major.rs:42-45 *)
      '(row, col) <- row_major_1d_2d d index ;; strided_raw m s row col
  | ArbitraryStrideColumnMajor d s =>                     (* arbitrary_stride_column_major.rs:43-46 *)
      '(row, col) <- column_major_1d_2d d index ;; strided_raw m s row col
  | ArbitraryStrideRowVector _ s => umul m index s        (* arbitrary_stride_row_vector.rs:44-46 *)
  | ArbitraryStrideColumnVector _ s => umul m index s     (* arbitrary_stride_column_vector.rs:44-46 *)
  | UpperTriangular _ => Ok index                         (* upper_triangular.rs:35-37 *)
  end.

(** The associated type [LayoutType::IndexLayout] of each layout
    (row_major.rs:22, column_major.rs:22, row_vector.rs:21, column_vector.rs:21,
    arbitrary_stride_row_major.rs:24, arbitrary_stride_column_major.rs:25,
    arbitrary_stride_row_vector.rs:26, arbitrary_stride_column_vector.rs:26,
    upper_triangular.rs:22). *)
Definition index_kind (l : layout) : base_kind :=
  match l with
  | RowMajor _ | ArbitraryStrideRowMajor _ _ => KRowMajor
  | ColumnMajor _ | ArbitraryStrideColumnMajor _ _ => KColumnMajor
  | RowVector _ | ArbitraryStrideRowVector _ _ => KRowVector
  | ColumnVector _ | ArbitraryStrideColumnVector _ _ => KColumnVector
  | UpperTriangular _ => KUpperTriangular
  end.

(** [LayoutType::index_layout]. *)
Definition index_layout (l : layout) : layout :=
  match l with
  | RowMajor _ => RowMajor (dim l)                        (* row_major.rs:60-62 *)
  | ColumnMajor _ => ColumnMajor (dim l)                  (* column_major.rs:60-62 *)
  | RowVector _ => RowVector (snd (dim l))                (* row_vector.rs:59-61 *)
  | ColumnVector _ => ColumnVector (fst (dim l))          (* column_vector.rs:59-61 *)
  | ArbitraryStrideRowMajor _ _ => RowMajor (dim l)       (* arbitrary_stride_row_major.rs:63-65 *)
  | ArbitraryStrideColumnMajor _ _ => ColumnMajor (dim l) (* arbitrary_stride_column_major.rs:64-66 *)
  | ArbitraryStrideRowVector _ _ => RowVector (snd (dim l)) (* arbitrary_stride_row_vector.rs:64-66 *)
  | ArbitraryStrideColumnVector _ _ => ColumnVector (fst (dim l)) (* arbitrary_stride_column_vector.rs:64-66 *)
  | UpperTriangular n => UpperTriangular n                (* upper_triangular.rs:61-63 *)
  end.

(** [BaseLayoutType::from_dimension]. *)
Definition from_dimension (k : base_kind) (d : N * N) : outcome layout :=
  match k with
  | KRowMajor => Ok (RowMajor d)                          (* row_major.rs:66-68 *)
  | KColumnMajor => Ok (ColumnMajor d)                    (* column_major.rs:66-68 *)
  | KRowVector =>                                         (* row_vector.rs:65-72 *)
      _ <- assert_ (fst d =? 1) ;; Ok (RowVector (snd d))
  | KColumnVector =>                                      (* column_vector.rs:65-72 *)
      _ <- assert_ (fst d =? 1) ;; Ok (ColumnVector (fst d))
  | KUpperTriangular =>                                   (* upper_triangular.rs:77-84 *)
      _ <- assert_ (fst d =? snd d) ;; Ok (UpperTriangular (fst d))
  end.

(** [VectorBaseLayoutType::from_length]: row_vector.rs:76-78, column_vector.rs:76-78. *)
Definition row_vector_from_length (n : N) : layout := RowVector n.
Definition column_vector_from_length (n : N) : layout := ColumnVector n.

(** [StridedLayoutType] is implemented by every layout but the triangular one
    (last line of each layout file). *)
Definition is_strided_layout (l : layout) : bool :=
  match l with UpperTriangular _ => false | _ => true end.
