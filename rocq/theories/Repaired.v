(** * Repaired: what the library would do if [stride] told the truth.

    This file is NOT a model of existing code. [LayoutType::stride] of the layouts
    [ArbitraryStrideRowMajor] (/repo/src/layouts/arbitrary_stride_row_major.rs:53-55) and
    [ArbitraryStrideColumnMajor] (/repo/src/layouts/arbitrary_stride_column_major.rs:54-56)
    returns the strides of a dense matrix instead of those of the layout; this breaks C06,
    C19, C34 and C57. Here are the functions that call [stride], with the function to call
    as a parameter: with [stride] they are those of the model, with [repaired_stride] they
    are the library after changing these two functions. *)

From Verif Require Import Machine Layouts Memory Matrix MatMul BlockedSpec.
Local Open Scope N_scope.

(** The two functions return the field [stride] of the layout, the others are unchanged. *)
Definition repaired_stride (l : layout) : outcome (N * N) :=
  match l with
  | ArbitraryStrideRowMajor _ s | ArbitraryStrideColumnMajor _ s => Ok s
  | _ => stride l
  end.

(** [block] and [block_mut], matrix_slices.rs:19-39, 48-69; [stride] is called at :36, :66. *)
Definition block_with (st : layout -> outcome (N * N)) (m : mode) (mut : bool) (b : base_matrix) (top_left d : N * N)
    : outcome base_matrix :=
  match block_order (bm_layout b) with
  | None => UB
  | Some o =>
      r <- uadd m (fst top_left) (fst d) ;;
      c <- uadd m (snd top_left) (snd d) ;;
      _ <- assert_ ((r <=? fst (dim (bm_layout b))) && (c <=? snd (dim (bm_layout b)))) ;;
      start_index <- convert_2d_raw m (bm_layout b) (fst top_left) (snd top_left) ;;
      p <- ptr_add (get_pointer b) start_index ;;
      s <- st (bm_layout b) ;;
      from_pointer_strided m mut o p d s
  end.

Section Repaired.
Context {T : Type} {SC : HScalar T}.
Notation heap := (@heap T).

(** [matmul], matrix_multiply.rs:189-236; [stride] is called at :211-216. *)
Definition matmul_with (st : layout -> outcome (N * N)) (kern : kernel T) (h : heap) (alpha : T)
    (mat_a mat_b : base_matrix) (beta : T) (mat_c : base_matrix) : outcome heap :=
  let dim1 := dim (bm_layout mat_a) in
  let dim2 := dim (bm_layout mat_b) in
  let dim3 := dim (bm_layout mat_c) in
  _ <- assert_ (matmul_dims_ok dim1 dim2 dim3) ;;
  sa <- st (bm_layout mat_a) ;;
  sb <- st (bm_layout mat_b) ;;
  sc <- st (bm_layout mat_c) ;;
  gemm kern (fst dim1) (snd dim1) (snd dim2) alpha
    (get_pointer mat_a) (as_isize (fst sa)) (as_isize (snd sa))
    (get_pointer mat_b) (as_isize (fst sb)) (as_isize (snd sb))
    beta
    (get_pointer mat_c) (as_isize (fst sc)) (as_isize (snd sc)) h.

(** The loop of C57. *)
Fixpoint blocked_with (st : layout -> outcome (N * N)) (kern : kernel T) (m : mode) (h : heap) (alpha : T)
    (a b c : base_matrix) (ts : list (tile * T)) : outcome heap :=
  match ts with
  | [] => Ok h
  | (t, beta) :: ts' =>
      x <- block_with st m false a (fst (t_rows t), fst (t_inner t)) (snd (t_rows t), snd (t_inner t)) ;;
      y <- block_with st m false b (fst (t_inner t), fst (t_cols t)) (snd (t_inner t), snd (t_cols t)) ;;
      z <- block_with st m true c (fst (t_rows t), fst (t_cols t)) (snd (t_rows t), snd (t_cols t)) ;;
      h' <- matmul_with st kern h alpha x y beta z ;;
      blocked_with st kern m h' alpha a b c ts'
  end.
End Repaired.

(** The matrices that can have blocks: dense or strided, with different cells for
    different entries. *)
Definition blockable (l : layout) : Prop :=
  match l with
  | RowMajor _ | ColumnMajor _ => True
  | ArbitraryStrideRowMajor d s | ArbitraryStrideColumnMajor d s => Spec.separated d s
  | _ => False
  end.

(** The blocks of a step exist. *)
Definition tile_inside (a b c : base_matrix) (t : tile) : Prop :=
  let w (x : base_matrix) r s :=
    MatrixSpec.nonempty (snd r, snd s) /\ MatrixSpec.inside (dim (bm_layout x)) (fst r, fst s) (snd r, snd s) in
  w a (t_rows t) (t_inner t) /\ w b (t_inner t) (t_cols t) /\ w c (t_rows t) (t_cols t).
