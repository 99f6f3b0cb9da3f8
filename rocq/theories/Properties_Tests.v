(** * Property C47: the repository's own tests, for all sizes.

    The product tests compare the library with a plain triple loop. Over exact
    arithmetic (a commutative semiring and a kernel that computes its formula)
    the two agree for every choice of operands, so the tests pass for every
    size and every random generator, not only for 4 x 6 times 6 x 5 and seed 0.
    For floating-point numbers the tests allow a difference of 100 units in the
    last place; that tolerance is not a consequence of anything modelled here. *)

From Coq Require Import Ring_theory ZArithRing.
From Verif Require Import Machine Layouts Memory Matrix MatMul Spec MatrixSpec ProductSpec.
From Verif Require Import AccessProofs BlockProofs ProductProofs ZScalar Properties_Products TestSuite TestProofs.
Local Open Scope N_scope.

(** The reference implementation computes the product, and leaves the same
    memory as the library where the strides are true. *)
Theorem C47_reference : forall (T : Type) (SC : HScalar T), semi_ring_theory szero sone sadd smul (@eq T) ->
  forall kern m (h : @heap T) alpha a b beta c A B C, computes kern ->
  base_valid h a -> base_valid h b -> base_valid h c ->
  strided_type (bm_layout a) = true -> strided_type (bm_layout b) = true -> strided_type (bm_layout c) = true ->
  container_is_mut (bm_data c) = true -> no_aliasing (bm_layout c) -> no_overlap a c -> no_overlap b c ->
  compatible (dim (bm_layout a)) (dim (bm_layout b)) (dim (bm_layout c)) ->
  entries_are h a A -> entries_are h b B -> entries_are h c C ->
  exists h', matmul_expect m h alpha a b beta c = Ok h' /\
    changes_only (fun q => exists p, in_range (dim (bm_layout c)) p /\ q = entry_cell c p) h h' /\
    entries_are h' c (product_entry (snd (dim (bm_layout a))) alpha A B beta C) /\
    (true_strides (bm_layout a) -> true_strides (bm_layout b) -> true_strides (bm_layout c) ->
     matmul kern h alpha a b beta c = Ok h').
Proof. exact @c47. Qed.
Print Assumptions C47_reference.

Lemma Z_laws : @semi_ring_theory Z szero sone sadd smul (@eq Z).
Proof.
  constructor; cbn [szero sone sadd smul ZScalar]; intros; ring.
Qed.

Example C47_reference_example :
  @semi_ring_theory Z szero sone sadd smul (@eq Z) /\ computes ex_kernel /\
  base_valid ex_product_heap ex_a /\ base_valid ex_product_heap ex_b /\ base_valid ex_product_heap ex_c /\
  no_overlap ex_a ex_c /\ no_overlap ex_b ex_c /\
  compatible (dim (bm_layout ex_a)) (dim (bm_layout ex_b)) (dim (bm_layout ex_c)) /\
  matmul_expect Checked ex_product_heap 2%Z ex_a ex_b (-1)%Z ex_c =
    Ok [[1; 2; 3; 4; 5; 6]; [7; 8; 9; 10; 11; 12]; [99; 135; 243; 333; 55]]%Z /\
  matmul ex_kernel ex_product_heap 2%Z ex_a ex_b (-1)%Z ex_c =
    Ok [[1; 2; 3; 4; 5; 6]; [7; 8; 9; 10; 11; 12]; [99; 135; 243; 333; 55]]%Z.
Proof.
  split; [exact Z_laws|]. split; [exact ex_kernel_computes|]. repeat split; try apply ex_operands_valid;
  try apply ex_operands_apart; reflexivity.
Qed.

(** The strides must be true: with a strided block the library reads other
    entries than the reference implementation (C34). *)
Theorem C47_strides_needed : exists (h : @heap Z) p x i c h1 h2,
  base_valid h p /\ block Checked false p (0, 0) (2, 2) = Ok x /\ base_valid h x /\
  strided_type (bm_layout x) = true /\ compatible (dim (bm_layout x)) (dim (bm_layout i)) (dim (bm_layout c)) /\
  matmul_expect Checked h 1%Z x i 0%Z c = Ok h1 /\ matmul ex_kernel h 1%Z x i 0%Z c = Ok h2 /\
  get Checked h1 (MBase c) 1 0 = Ok 4%Z /\ get Checked h2 (MBase c) 1 0 = Ok 3%Z.
Proof.
  exists ex_view_heap, ex_parent. eexists. exists ex_identity, ex_dest. do 2 eexists.
  split; [exact ex_parent_valid|]. split; [reflexivity|].
  split; [|split; [reflexivity|split; [repeat split|vm_compute; auto]]].
  apply strided_base_valid; try reflexivity. split; [|discriminate]. eexists. split; [reflexivity|discriminate].
Qed.
Print Assumptions C47_strides_needed.

(** The three tests pass, for every generator of scalars and all sizes. *)
Theorem C47_tests_pass : forall (T : Type) (SC : HScalar T), semi_ring_theory szero sone sadd smul (@eq T) ->
  forall (G : Type) (random_scalar : G -> T * G) kern shape m rows inner cols g, computes kern ->
  shape_fits shape (rows, inner) (inner, cols) ->
  rows * inner * Npos ssize <= isize_max -> inner * cols * Npos ssize <= isize_max ->
  rows * cols * Npos ssize <= isize_max ->
  exists h actual expect n, product_test random_scalar kern shape m rows inner cols g = Ok (h, actual, expect) /\
    number_of_elements m (bm_layout actual) = Ok n /\ n = rows * cols /\
    forall i, i < n -> exists v, get1d m h (MBase actual) i = Ok v /\ get1d m h (MBase expect) i = Ok v.
Proof. exact @c47_test. Qed.
Print Assumptions C47_tests_pass.

(** With the numbers of the repository, and a generator over the integers. *)
Definition ex_random (g : Z) : Z * Z := (g mod 19 - 9, (g * 25214903917 + 11) mod 2 ^ 48)%Z.

Example C47_tests_example :
  shape_fits MatrixMatrix (4, 6) (6, 5) /\ shape_fits RowMatrix (1, 4) (4, 6) /\
  shape_fits MatrixColumn (4, 6) (6, 1) /\
  (exists h c d, product_test ex_random ex_kernel MatrixMatrix Checked 4 6 5 0%Z = Ok (h, c, d) /\
     get1d Checked h (MBase c) 19 = get1d Checked h (MBase d) 19 /\
     get1d Checked h (MBase c) 19 <> get1d Checked h (MBase c) 18) /\
  returns (product_test ex_random ex_kernel RowMatrix Checked 1 4 6 0%Z) /\
  returns (product_test ex_random ex_kernel MatrixColumn Checked 4 6 1 0%Z).
Proof.
  split; [exact I|]. split; [reflexivity|]. split; [reflexivity|]. split.
  - eexists. eexists. eexists. split; [vm_compute; reflexivity|]. split; [vm_compute; reflexivity|].
    vm_compute. discriminate.
  - split; eexists; vm_compute; reflexivity.
Qed.

(** ** The other tests of the repository, run on the model (over the integers).
    These are tests of the model, not proofs. *)

(** upper_triangular.rs:92-111 *)
Example test_upper_triangular_indexing :
  let n := 5 in let l := UpperTriangular n in
  convert_2d_1d Checked l (n - 1) (n - 1) = Ok 0 /\ convert_2d_1d Checked l (n - 2) (n - 1) = Ok 2 /\
  convert_1d_2d Checked l 0 = Ok (n - 1, n - 1) /\ convert_1d_2d Checked l 2 = Ok (n - 2, n - 1) /\
  convert_1d_2d Checked l ((n * (n + 1)) / 2 - 1) = Ok (0, n - 1).
Proof. vm_compute. repeat split. Qed.

(** macros.rs:71-109 *)
Example test_macros :
  (exists h b, mat_macro Checked ([] : @heap Z) ByRow (2, 3) = Ok (h, b) /\ dim (bm_layout b) = (2, 3)) /\
  (exists h b g, rand_mat_macro Checked [] ex_random 0%Z ByRow (2, 3) = Ok (h, b, g) /\ dim (bm_layout b) = (2, 3)) /\
  (exists h b, vector_macro Checked ([] : @heap Z) ByColumn 5 = Ok (h, b) /\ dim (bm_layout b) = (5, 1)) /\
  (exists h b, vector_macro Checked ([] : @heap Z) ByRow 5 = Ok (h, b) /\ dim (bm_layout b) = (1, 5)) /\
  (exists h b g, rand_vector_macro Checked [] ex_random 0%Z ByColumn 5 = Ok (h, b, g) /\ dim (bm_layout b) = (5, 1)).
Proof. repeat split; repeat eexists; vm_compute; reflexivity. Qed.

(** scalar_mult.rs:183-192 *)
Example test_scalar_mult :
  ('(h, mat) <- zeros_from_dim Checked ([] : @heap Z) KRowMajor 2 3 ;;
   h <- set Checked h (MBase mat) 1 2 5%Z ;;
   '(h, res) <- eval Checked h (mul_scalar_mat 2%Z (MBase mat)) ;;
   get Checked h (MBase res) 1 2) = Ok 10%Z.
Proof. vm_compute. reflexivity. Qed.

(** addition.rs:233-244 *)
Example test_addition :
  ('(h, mat1) <- zeros_from_dim Checked ([] : @heap Z) KRowMajor 2 3 ;;
   '(h, mat2) <- zeros_from_dim Checked h KRowMajor 2 3 ;;
   h <- set Checked h (MBase mat1) 1 2 5%Z ;;
   h <- set Checked h (MBase mat2) 1 2 6%Z ;;
   sum <- add_mat_mat (mul_scalar_mat 2%Z (MBase mat1)) (MBase mat2) ;;
   '(h, res) <- eval Checked h sum ;;
   get Checked h (MBase res) 1 2) = Ok 16%Z.
Proof. vm_compute. reflexivity. Qed.

(** matrix_slices.rs:170-179 *)
Example test_simple_slice :
  ('(h, mat) <- zeros_from_dim Checked ([] : @heap Z) KRowMajor 3 4 ;;
   h <- set Checked h (MBase mat) 1 2 1%Z ;;
   slice <- block Checked false mat (0, 1) (2, 2) ;;
   x <- get Checked h (MBase slice) 1 1 ;;
   y <- get1d Checked h (MBase slice) 3 ;;
   Ok (x, y)) = Ok (1%Z, 1%Z).
Proof. vm_compute. reflexivity. Qed.

(** matrix_slices.rs:181-191 *)
Example test_double_slice :
  ('(h, mat) <- zeros_from_dim Checked ([] : @heap Z) KRowMajor 3 4 ;;
   h <- set Checked h (MBase mat) 1 2 1%Z ;;
   slice1 <- block Checked false mat (0, 1) (3, 3) ;;
   slice2 <- block Checked false slice1 (1, 0) (2, 2) ;;
   x <- get Checked h (MBase slice1) 1 1 ;;
   y <- get Checked h (MBase slice2) 0 1 ;;
   Ok (x, y)) = Ok (1%Z, 1%Z).
Proof. vm_compute. reflexivity. Qed.

(** matrix_slices.rs:193-205, examples.rs:122-134 *)
Example test_disjoint_slices :
  ('(h, mat, _) <- rand_mat_macro Checked [] ex_random 0%Z ByRow (10, 10) ;;
   '(m1, m2, m3, m4) <- split_in_four_mut Checked mat (5, 5) ;;
   h <- set Checked h (MBase m1) 1 0 2%Z ;;
   h <- set Checked h (MBase m2) 3 4 3%Z ;;
   h <- set Checked h (MBase m3) 2 1 4%Z ;;
   h <- set Checked h (MBase m4) 4 2 5%Z ;;
   x1 <- get Checked h (MBase mat) 1 0 ;;
   x2 <- get Checked h (MBase mat) 3 9 ;;
   x3 <- get Checked h (MBase mat) 7 1 ;;
   x4 <- get Checked h (MBase mat) 9 7 ;;
   Ok (x1, x2, x3, x4)) = Ok (2, 3, 4, 5)%Z.
Proof. vm_compute. reflexivity. Qed.

(** examples.rs:47-67: a write and a read inside, and the two that panic. *)
Example doc_access :
  ('(h, mat) <- mat_macro Checked ([] : @heap Z) ByRow (3, 5) ;;
   h <- set Checked h (MBase mat) 2 3 4%Z ;; get Checked h (MBase mat) 2 3) = Ok 4%Z /\
  ('(h, mat) <- mat_macro Checked ([] : @heap Z) ByRow (3, 5) ;; set Checked h (MBase mat) 3 5 4%Z) = Panic /\
  ('(h, mat) <- mat_macro Checked ([] : @heap Z) ByRow (3, 5) ;; get Checked h (MBase mat) 3 5) = Panic.
Proof. vm_compute. repeat split. Qed.

(** examples.rs:70-77 *)
Example doc_unchecked :
  ('(h, mat) <- mat_macro Checked ([] : @heap Z) ByRow (3, 5) ;;
   p <- @get_unchecked_mut Z Checked (MBase mat) 2 3 ;; h <- place_write h p 4%Z ;;
   get_unchecked Checked h (MBase mat) 2 3) = Ok 4%Z.
Proof. vm_compute. reflexivity. Qed.

(** examples.rs:81-87 *)
Example doc_sum :
  ('(h, mat1, g) <- rand_mat_macro Checked [] ex_random 0%Z ByRow (3, 5) ;;
   '(h, mat2, _) <- rand_mat_macro Checked h ex_random g ByRow (3, 5) ;;
   e <- add_mat_ref (mul_scalar_ref 3%Z (MBase mat1)) (MBase mat2) ;;
   '(h, sum) <- eval Checked h e ;;
   s <- get Checked h (MBase sum) 2 4 ;;
   x <- get Checked h (MBase mat1) 2 4 ;;
   y <- get Checked h (MBase mat2) 2 4 ;;
   Ok (s - (3 * x + y), x =? 0, y =? 0)%Z) = Ok (0%Z, false, false).
Proof. vm_compute. reflexivity. Qed.

(** examples.rs:98-105 *)
Example doc_products :
  ('(h, mat, g) <- rand_mat_macro Checked [] ex_random 0%Z ByRow (3, 5) ;;
   '(h, col_vec, g) <- rand_vector_macro Checked h ex_random g ByColumn 5 ;;
   '(h, row_vec, g) <- rand_vector_macro Checked h ex_random g ByRow 3 ;;
   '(h, res1) <- dot MatrixColumn ex_kernel Checked h mat col_vec ;;
   '(h, res2) <- dot RowMatrix ex_kernel Checked h row_vec mat ;;
   Ok (dim (bm_layout res1), dim (bm_layout res2))) = Ok ((3, 1), (1, 5)).
Proof. vm_compute. reflexivity. Qed.

(** examples.rs:109-114 *)
Example doc_block :
  ('(h, mat, _) <- rand_mat_macro Checked [] ex_random 0%Z ByRow (10, 10) ;;
   blk <- block Checked false mat (2, 2) (3, 5) ;;
   x <- get Checked h (MBase blk) 2 4 ;; y <- get Checked h (MBase mat) 4 6 ;;
   Ok (x - y, x =? 0)%Z) = Ok (0%Z, false).
Proof. vm_compute. reflexivity. Qed.
