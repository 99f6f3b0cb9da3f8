(** * MatMul: matrix products, /repo/src/matrix_multiply.rs.

    The external gemm routines of the crate matrixmultiply are modelled by
    their documented contract: entry (i, j) of C, found at the strides passed,
    becomes a function of alpha, beta, the old entry, row i of A and column j
    of B. Which function (order of summation, fused operations, rounding) is
    left open: it is the parameter [kern]. The model visits the entries in row
    order; for a C that overlaps A or B the order would matter. *)

From Verif Require Import Machine Layouts Memory Matrix.
Local Open Scope N_scope.

(** Everything but the data that an implementation of gemm can base its choice
    of algorithm on: the sizes and the strides. *)
Record gemm_shape := mkShape {
  g_m : N; g_k : N; g_n : N;
  g_sa : Z * Z; g_sb : Z * Z; g_sc : Z * Z
}.

Section MatMul.
Context {T : Type} {SC : HScalar T}.
Notation heap := (@heap T).

(** Reading at a signed offset from a raw pointer. *)
Definition ptr_read (h : heap) (p : pointer) (d : Z) : outcome T :=
  let z := (Z.of_N (p_off p) + d)%Z in
  if (0 <=? z)%Z then region_read h (p_region p) (Z.to_N z) else UB.

(** Writing at a signed offset from a raw pointer. *)
Definition ptr_write (h : heap) (p : pointer) (d : Z) (v : T) : outcome heap :=
  let z := (Z.of_N (p_off p) + d)%Z in
  if (0 <=? z)%Z then pl <- region_place (p_region p) (Z.to_N z) ;; place_write h pl v else UB.

(** [f i], [f (i+1)], ... , [n] values in a list. *)
Fixpoint collect {A : Type} (n : nat) (i : N) (f : N -> outcome A) : outcome (list A) :=
  match n with
  | O => Ok []
  | S n' => x <- f i ;; xs <- collect n' (i + 1) f ;; Ok (x :: xs)
  end.

(** What the kernel computes for the entry (i, j) of a product of a given
    shape, from alpha, the pairs (A(i,l), B(l,j)) for l = 0, 1, ..., beta and the
    old entry. *)
Definition kernel := gemm_shape -> N -> N -> T -> list (T * T) -> T -> T -> T.

(** Address of entry (i, j) relative to the pointer. *)
Definition gemm_offset (s : Z * Z) (i j : N) : Z := (Z.of_N i * fst s + Z.of_N j * snd s)%Z.

(** Update of the entry (i, j) of C. *)
Definition gemm_entry (kern : kernel) (sh : gemm_shape) (alpha : T) (a b : pointer) (beta : T)
    (c : pointer) (i j : N) (h : heap) : outcome heap :=
  pairs <- collect (N.to_nat (g_k sh)) 0 (fun l =>
             x <- ptr_read h a (gemm_offset (g_sa sh) i l) ;;
             y <- ptr_read h b (gemm_offset (g_sb sh) l j) ;; Ok (x, y)) ;;
  old <- ptr_read h c (gemm_offset (g_sc sh) i j) ;;
  ptr_write h c (gemm_offset (g_sc sh) i j) (kern sh i j alpha pairs beta old).

(** [sgemm], [dgemm] (matrixmultiply); called at matrix_multiply.rs:219-234. *)
Definition gemm (kern : kernel) (m k n : N) (alpha : T) (a : pointer) (rsa csa : Z)
    (b : pointer) (rsb csb : Z) (beta : T) (c : pointer) (rsc csc : Z) (h : heap) : outcome heap :=
  let sh := mkShape m k n (rsa, csa) (rsb, csb) (rsc, csc) in
  for_range m (fun i h =>
    for_range n (fun j h => gemm_entry kern sh alpha a b beta c i j h) h) h.

(** The assertion of [matmul]: matrix_multiply.rs:200-206, 283-289. *)
Definition matmul_dims_ok (dim1 dim2 dim3 : N * N) : bool :=
  (snd dim1 =? fst dim2) && (fst dim3 =? fst dim1) && (snd dim3 =? snd dim2).

(** [matmul] for real scalars: matrix_multiply.rs:189-236. *)
Definition matmul (kern : kernel) (h : heap) (alpha : T) (mat_a mat_b : base_matrix) (beta : T)
    (mat_c : base_matrix) : outcome heap :=
  let dim1 := dim (bm_layout mat_a) in
  let dim2 := dim (bm_layout mat_b) in
  let dim3 := dim (bm_layout mat_c) in
  _ <- assert_ (matmul_dims_ok dim1 dim2 dim3) ;;
  sa <- stride (bm_layout mat_a) ;;
  sb <- stride (bm_layout mat_b) ;;
  sc <- stride (bm_layout mat_c) ;;
  gemm kern (fst dim1) (snd dim1) (snd dim2) alpha
    (get_pointer mat_a) (as_isize (fst sa)) (as_isize (snd sa))
    (get_pointer mat_b) (as_isize (fst sb)) (as_isize (snd sb))
    beta
    (get_pointer mat_c) (as_isize (fst sc)) (as_isize (snd sc)) h.

(** The combinations of compile-time sizes [matmul] exists for: matrix_multiply.rs:342-349. *)
Definition matmul_sizes : list (size_id * size_id * (size_id * size_id) * (size_id * size_id)) :=
  [ (Dynamic, Dynamic, (Dynamic, Dynamic), (Dynamic, Dynamic));
    (Dynamic, Dynamic, (Dynamic, Fixed1), (Dynamic, Fixed1));
    (Fixed1, Dynamic, (Dynamic, Dynamic), (Fixed1, Dynamic)) ].

(** [dot], matrix x matrix: matrix_multiply.rs:75-89. *)
Definition dot_mat_mat (kern : kernel) (m : mode) (h : heap) (a b : base_matrix)
    : outcome (heap * base_matrix) :=
  '(h1, res) <- zeros_from_dim m h KRowMajor (fst (dim (bm_layout a))) (snd (dim (bm_layout b))) ;;
  h2 <- matmul kern h1 sone a b szero res ;;
  Ok (h2, res).

(** [dot], row vector x matrix: matrix_multiply.rs:104-118. *)
Definition dot_row_mat (kern : kernel) (m : mode) (h : heap) (a b : base_matrix)
    : outcome (heap * base_matrix) :=
  '(h1, res) <- row_vector_zeros_from_dim m h (fst (dim (bm_layout a))) (snd (dim (bm_layout b))) ;;
  h2 <- matmul kern h1 sone a b szero res ;;
  Ok (h2, res).

(** [dot], matrix x column vector: matrix_multiply.rs:138-152. *)
Definition dot_mat_col (kern : kernel) (m : mode) (h : heap) (a b : base_matrix)
    : outcome (heap * base_matrix) :=
  '(h1, res) <- column_vector_zeros_from_dim m h (fst (dim (bm_layout a))) (snd (dim (bm_layout b))) ;;
  h2 <- matmul kern h1 sone a b szero res ;;
  Ok (h2, res).

End MatMul.
Arguments kernel T : clear implicits.

(** Complex numbers [num::Complex], [c32] and [c64]: types.rs:11-15. *)
Record complex (R : Type) := mkComplex { re : R; im : R }.
Arguments mkComplex {R} re im.
Arguments re {R} c.
Arguments im {R} c.

(** The [[re, im]] array of a complex number and back: matrix_multiply.rs:301-302
    for alpha and beta; the casts of the pointers at matrix_multiply.rs:312, 315,
    319 reinterpret each item the same way ([Complex] is [repr(C)]). *)
Definition to_array {R : Type} (z : complex R) : R * R := (re z, im z).
Definition of_array {R : Type} (a : R * R) : complex R := mkComplex (fst a) (snd a).

(** [cgemm], [zgemm] on arrays seen as a kernel on complex items. *)
Definition complex_kernel {R : Type} (kern : kernel (R * R)) : kernel (complex R) :=
  fun sh i j alpha pairs beta old =>
    of_array (kern sh i j (to_array alpha)
                   (map (fun p => (to_array (fst p), to_array (snd p))) pairs)
                   (to_array beta) (to_array old)).

(** [matmul] for complex scalars: matrix_multiply.rs:272-324. *)
Definition matmul_complex {R : Type} (kern : kernel (R * R))
    (h : @heap (complex R)) (alpha : complex R) (mat_a mat_b : base_matrix) (beta : complex R)
    (mat_c : base_matrix) : outcome (@heap (complex R)) :=
  matmul (complex_kernel kern) h alpha mat_a mat_b beta mat_c.
