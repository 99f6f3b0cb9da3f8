(** * Corrected: what the library would do after five local changes.

    Like [Repaired] this file is NOT a model of existing code. It has the functions that C02,
    C04, C07, C14, C15, C26 and C41 find wrong, each with the line that is changed. Where
    other functions call them they are a parameter of the caller; with the present
    functions the callers are those of the model. *)

From Verif Require Import Machine Layouts Memory Matrix.
Local Open Scope N_scope.

(** ** Converting 1d indices *)

(** The largest [p] with [p * (p + 1) / 2 <= index], by [usize::isqrt] in place of the floating
    point computation of upper_triangular.rs:26-27. *)
Definition triangle_root (m : mode) (index : N) : outcome N :=
  x <- umul m 2 index ;;
  let s := N.sqrt x in
  s1 <- uadd m s 1 ;; t <- umul m s s1 ;;
  if t <=? x then Ok s else usub m s 1.

(** upper_triangular.rs:25-32 with the function that computes [p] as a parameter. *)
Definition upper_triangular_1d_2d_with (root : N -> outcome N) (m : mode) (n index : N) : outcome (N * N) :=
  p <- root index ;;
  a <- usub m n 1 ;; row <- usub m a p ;;
  b <- usub m n 1 ;; c <- usub m b p ;; e <- uadd m c index ;;
  p1 <- uadd m p 1 ;; pp <- umul m p p1 ;; t <- udiv pp 2 ;;
  col <- usub m e t ;;
  Ok (row, col).

(** [convert_1d_2d] with 0 in place of 1 in row_vector.rs:24-26, column_vector.rs:24-26,
    arbitrary_stride_row_vector.rs:29-31 and arbitrary_stride_column_vector.rs:29-31, and with
    the integer root. *)
Definition corrected_1d_2d (m : mode) (l : layout) (index : N) : outcome (N * N) :=
  match l with
  | RowVector _ | ArbitraryStrideRowVector _ _ => Ok (0, index)
  | ColumnVector _ | ArbitraryStrideColumnVector _ _ => Ok (index, 0)
  | UpperTriangular n => upper_triangular_1d_2d_with (triangle_root m) m n index
  | _ => convert_1d_2d m l index
  end.

(** ** Upper triangular matrices by rows from the first *)

(** The number of entries of a triangle with [k] rows, as in upper_triangular.rs:66-68. *)
Definition triangle (m : mode) (k : N) : outcome N :=
  k1 <- uadd m k 1 ;; x <- umul m k k1 ;; udiv x 2.

(** In place of upper_triangular.rs:40-48, which stores the last row first: the entries
    of the rows above, and the distance from the diagonal. *)
Definition packed_2d_1d (m : mode) (n row col : N) : outcome N :=
  _ <- assert_ (row <=? col) ;;
  total <- triangle m n ;; rest <- usub m n row ;; below <- triangle m rest ;;
  above <- usub m total below ;;
  x <- uadd m above col ;; usub m x row.

(** In place of upper_triangular.rs:25-32. *)
Definition packed_1d_2d (m : mode) (n index : N) : outcome (N * N) :=
  total <- triangle m n ;; last <- usub m total 1 ;; back <- usub m last index ;;
  p <- triangle_root m back ;;
  n1 <- usub m n 1 ;; row <- usub m n1 p ;;
  rest <- uadd m p 1 ;; below <- triangle m rest ;; above <- usub m total below ;;
  x <- usub m index above ;; col <- uadd m row x ;;
  Ok (row, col).

(** ** Column vectors from a dimension *)

(** column_vector.rs:65-72 with [dim.1] in place of [dim.0] in the assertion. *)
Definition corrected_from_dimension (k : base_kind) (d : N * N) : outcome layout :=
  match k with
  | KColumnVector => _ <- assert_ (snd d =? 1) ;; Ok (ColumnVector (fst d))
  | _ => from_dimension k d
  end.

(** ** Sizes *)

(** [from_data], base_matrix.rs:38-51, with a check of the size types. *)
Definition agrees (s : size_id) (n : N) : bool := match s with Dynamic => true | _ => n =? size_N s end.
Definition sized_from_data (m : mode) (rs cs : size_id) (c : container) (l : layout) : outcome base_matrix :=
  _ <- assert_ (agrees rs (fst (dim l)) && agrees cs (snd (dim l))) ;; from_data m rs cs c l.

(** [BaseMatrix::length], base_matrix.rs:142-158, with the number of entries of the layout in place of the
    number of items of the container. *)
Definition corrected_length (m : mode) (b : base_matrix) : outcome N := number_of_elements m (bm_layout b).

Section Corrected.
Context {T : Type} {SC : HScalar T}.
Notation heap := (@heap T).

(** [zeros_from_dim], constructors.rs:74-80; [from_dimension] is a parameter. *)
Definition zeros_from_dim_with (fd : base_kind -> N * N -> outcome layout) (m : mode) (h : heap) (k : base_kind) (rows cols : N)
    : outcome (heap * base_matrix) :=
  l <- fd k (rows, cols) ;;
  n <- number_of_elements m l ;;
  '(h', c) <- vector_container_new h n ;;
  l' <- fd k (rows, cols) ;;
  b <- from_data m Dynamic Dynamic c l' ;;
  Ok (h', b).

(** [eval], common_impl.rs:79-89. *)
Definition eval_with (fd : base_kind -> N * N -> outcome layout) (m : mode) (h : heap) (x : matrix T) : outcome (heap * base_matrix) :=
  let d := dim (mat_layout x) in
  '(h1, result) <- zeros_from_dim_with fd m h (index_kind (mat_layout x)) (fst d) (snd d) ;;
  n <- number_of_elements m (mat_layout x) ;;
  h2 <- for_range n (fun index h =>
          v <- get1d_unchecked m h x index ;;
          p <- base_get1d_unchecked_mut m result index ;;
          place_write h p v) h1 ;;
  Ok (h2, result).
End Corrected.
