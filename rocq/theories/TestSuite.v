(** * TestSuite: code of the repository's own tests.

    The tests of matrix products compare the library with a reference
    implementation in the test module, on random data of fixed sizes. Here is
    that code for any sizes, to prove that the tests pass for all of them. *)

From Verif Require Import Machine Layouts Memory Matrix MatMul ProductSpec.
Local Open Scope N_scope.

Section TestSuite.
Context {T : Type} {SC : HScalar T}.
Notation heap := (@heap T).

(** The statements [*x.get_mut(row, col) *= s] and [+= s], with the operation [f]. *)
Definition update (m : mode) (h : heap) (x : matrix T) (row col : N) (f : T -> T) : outcome heap :=
  p <- get_mut m x row col ;; v <- place_read h p ;; place_write h p (f v).

(** [matmul_expect]: matrix_multiply.rs:364-398. *)
Definition matmul_expect (m : mode) (h : heap) (alpha : T) (mat_a mat_b : base_matrix) (beta : T)
    (mat_c : base_matrix) : outcome heap :=
  let rows := fst (dim (bm_layout mat_a)) in
  let inner := snd (dim (bm_layout mat_a)) in
  let cols := snd (dim (bm_layout mat_b)) in
  for_range rows (fun m_index h =>
    for_range cols (fun n_index h =>
      h <- update m h (MBase mat_c) m_index n_index (fun v => smul v beta) ;;
      for_range inner (fun k_index h =>
        x <- get m h (MBase mat_a) m_index k_index ;;
        y <- get m h (MBase mat_b) k_index n_index ;;
        update m h (MBase mat_c) m_index n_index (fun v => sadd v (smul (smul alpha x) y))) h) h) h.

(** The operands of the three tests, here of any size: matrix_multiply.rs:404-407,
    440-443, 476-479. *)
Definition test_left (shape : dot_shape) (m : mode) (h : heap) (rows inner : N) : outcome (heap * base_matrix) :=
  match shape with
  | RowMatrix => row_vector_zeros_from_length m h inner
  | _ => zeros_from_dim m h KRowMajor rows inner
  end.
Definition test_right (shape : dot_shape) (m : mode) (h : heap) (inner cols : N) : outcome (heap * base_matrix) :=
  match shape with
  | MatrixColumn => column_vector_zeros_from_length m h inner
  | _ => zeros_from_dim m h KRowMajor inner cols
  end.
Definition test_result (shape : dot_shape) (m : mode) (h : heap) (rows cols : N) : outcome (heap * base_matrix) :=
  match shape with
  | MatrixMatrix => zeros_from_dim m h KRowMajor rows cols
  | RowMatrix => row_vector_zeros_from_length m h cols
  | MatrixColumn => column_vector_zeros_from_length m h rows
  end.

(** The loop that copies the entries by their 1d numbers: matrix_multiply.rs:417-419, 453-455, 489-491. *)
Definition copy_entries (m : mode) (h : heap) (from to : base_matrix) : outcome heap :=
  n <- number_of_elements m (bm_layout from) ;;
  for_range n (fun index h =>
    v <- get1d m h (MBase from) index ;; set1d m h (MBase to) index v) h.

(** The tests up to the final comparison, for a generator [random_scalar] of
    scalars. Returns the two matrices to compare: matrix_multiply.rs:402-425, 438-461,
    474-497. *)
Definition product_test {G : Type} (random_scalar : G -> T * G) (kern : kernel T) (shape : dot_shape)
    (m : mode) (rows inner cols : N) (g : G) : outcome (heap * base_matrix * base_matrix) :=
  '(h, mat_a) <- test_left shape m [] rows inner ;;
  '(h, mat_b) <- test_right shape m h inner cols ;;
  '(h, actual) <- test_result shape m h rows cols ;;
  '(h, expect) <- test_result shape m h rows cols ;;
  '(h, g, _) <- fill_from_rand m h mat_a random_scalar g ;;
  '(h, g, _) <- fill_from_rand m h mat_b random_scalar g ;;
  '(h, g, _) <- fill_from_rand m h actual random_scalar g ;;
  h <- copy_entries m h actual expect ;;
  let '(alpha, g) := random_scalar g in
  let '(beta, g) := random_scalar g in
  h <- matmul_expect m h alpha mat_a mat_b beta expect ;;
  h <- matmul kern h alpha mat_a mat_b beta actual ;;
  Ok (h, actual, expect).

End TestSuite.
