(** * Properties C13, C14, C15, C41: constructors, compile-time sizes, length. *)

From Verif Require Import Machine Layouts Memory Matrix Spec MatrixSpec ConstructorProofs ZScalar.
Local Open Scope N_scope.

(** C13: [zeros_from_dim] and [mat!] for row-major and column-major matrices
    return zeros in fresh memory if the bytes can be allocated; otherwise, in a
    build with overflow checks, they panic. *)
Theorem C13_zeros : forall (T : Type) (SC : HScalar T) m (h : @heap T) k rows cols,
  k = KRowMajor \/ k = KColumnMajor ->
  (rows * cols * Npos ssize <= isize_max ->
   exists h' b, zeros_from_dim m h k rows cols = Ok (h', b) /\
     mat_dim (@MBase T b) = (rows, cols) /\ index_kind (bm_layout b) = k /\
     mat_size (@MBase T b) = (Dynamic, Dynamic) /\
     r_len (c_region (bm_data b)) = rows * cols /\ fresh_zeros h h' b) /\
  (isize_max < rows * cols * Npos ssize -> zeros_from_dim Checked h k rows cols = Panic).
Proof. exact @c13. Qed.
Print Assumptions C13_zeros.

Theorem C13_mat_macro : forall (T : Type) (SC : HScalar T) m (h : @heap T) o d,
  (fst d * snd d * Npos ssize <= isize_max ->
   exists h' b, mat_macro m h o d = Ok (h', b) /\ mat_dim (@MBase T b) = d /\
     index_kind (bm_layout b) = (match o with ByRow => KRowMajor | ByColumn => KColumnMajor end) /\
     fresh_zeros h h' b) /\
  (isize_max < fst d * snd d * Npos ssize -> mat_macro Checked h o d = Panic).
Proof. exact @c13_mat. Qed.
Print Assumptions C13_mat_macro.

(** The same for triangular matrices, which must be square. *)
Theorem C13_triangular_zeros : forall (T : Type) (SC : HScalar T) m (h : @heap T) rows cols,
  (rows = cols -> rows * (rows + 1) / 2 * Npos ssize <= isize_max ->
   exists h' b, zeros_from_dim m h KUpperTriangular rows cols = Ok (h', b) /\
     bm_layout b = UpperTriangular rows /\ fresh_zeros h h' b) /\
  (rows <> cols -> zeros_from_dim m h KUpperTriangular rows cols = Panic) /\
  (isize_max < rows * (rows + 1) / 2 * Npos ssize ->
   zeros_from_dim Checked h KUpperTriangular rows cols = Panic).
Proof. exact @c13_triangular. Qed.
Print Assumptions C13_triangular_zeros.

(** What "fresh" gives: matrices that existed before read as before. *)
Theorem C13_others_unchanged : forall (T : Type) (SC : HScalar T) (h h' : @heap T) b,
  fresh_zeros h h' b -> keeps_matrices h h'.
Proof. exact (fun T SC h h' b H => only_allocates_keeps h h' (proj1 H)). Qed.
Print Assumptions C13_others_unchanged.

Example C13_example : exists h' b,
  zeros_from_dim Checked [zlist 3 7] KColumnMajor 2 3 = Ok (h', b) /\
  map (fun p => get Checked h' (MBase b) (fst p) (snd p)) [(0, 0); (1, 2)] = [Ok 0%Z; Ok 0%Z] /\
  hget h' 0 2 = Some 9%Z /\ 2 * 3 * Npos (ssize (T := Z)) <= isize_max.
Proof. eexists. eexists. split; [reflexivity|]. vm_compute. intuition congruence. Qed.

(** Without overflow checks the element count wraps: a 2^32 x 2^32 matrix is
    "allocated" with no elements, and reading it is undefined behaviour. *)
Theorem C13_release_refuted : exists h' b,
  zeros_from_dim (T := Z) Wrapping [] KRowMajor (2 ^ 32) (2 ^ 32) = Ok (h', b) /\
  get Wrapping h' (MBase b) 0 1 = UB.
Proof. eexists. eexists. split; [vm_compute; reflexivity|]. vm_compute. reflexivity. Qed.
Print Assumptions C13_release_refuted.

(** C14: vectors. [from_dimension] of row vectors accepts exactly 1 x n. *)
Theorem C14_vectors_partial : forall (T : Type) (SC : HScalar T) m (h : @heap T),
  (forall n, n * Npos ssize <= isize_max ->
    exists h' b, row_vector_zeros_from_length m h n = Ok (h', b) /\ mat_dim (@MBase T b) = (1, n) /\
                 mat_length (@MBase T b) = Some n /\ fresh_zeros h h' b) /\
  (forall n, n * Npos ssize <= isize_max ->
    exists h' b, column_vector_zeros_from_length m h n = Ok (h', b) /\ mat_dim (@MBase T b) = (n, 1) /\
                 mat_length (@MBase T b) = Some n /\ fresh_zeros h h' b) /\
  (forall n, isize_max < n * Npos ssize ->
     row_vector_zeros_from_length m h n = Panic /\ column_vector_zeros_from_length m h n = Panic) /\
  (forall rows cols,
     row_vector_zeros_from_dim m h rows cols =
       (if rows =? 1 then row_vector_zeros_from_length m h cols else Panic) /\
     column_vector_zeros_from_dim m h rows cols =
       (if cols =? 1 then column_vector_zeros_from_length m h rows else Panic)) /\
  (forall d, (fst d = 1 -> exists l, from_dimension KRowVector d = Ok l /\ dim l = d) /\
             (fst d <> 1 -> from_dimension KRowVector d = Panic)).
Proof. exact @c14. Qed.
Print Assumptions C14_vectors_partial.

(** [vector!]: a column vector, or a row vector if one asks for it. *)
Theorem C14_vector_macro : forall (T : Type) (SC : HScalar T) m (h : @heap T) o n,
  (n * Npos ssize <= isize_max ->
   exists h' b, vector_macro m h o n = Ok (h', b) /\
     mat_dim (@MBase T b) = (match o with ByRow => (1, n) | ByColumn => (n, 1) end) /\
     index_kind (bm_layout b) = (match o with ByRow => KRowVector | ByColumn => KColumnVector end) /\
     mat_size (@MBase T b) = (match o with ByRow => (Fixed1, Dynamic) | ByColumn => (Dynamic, Fixed1) end) /\
     fresh_zeros h h' b) /\
  (isize_max < n * Npos ssize -> vector_macro m h o n = Panic).
Proof. exact @c14_macro. Qed.
Print Assumptions C14_vector_macro.

(** Missing from C14 and false: [ColumnVector::from_dimension] accepts the
    dimensions of row vectors, and then forgets the length. *)
Theorem C14_column_from_dimension_refuted : forall n, n <> 1 ->
  from_dimension KColumnVector (n, 1) = Panic /\
  exists l, from_dimension KColumnVector (1, n) = Ok l /\ dim l = (1, 1).
Proof. exact c14_column. Qed.
Print Assumptions C14_column_from_dimension_refuted.

Example C14_example : exists h' b,
  column_vector_zeros_from_dim Checked [zlist 2 1] 3 1 = Ok (h', b) /\
  mat_length (@MBase Z b) = Some 3 /\ get1d Checked h' (MBase b) 2 = Ok 0%Z /\
  column_vector_zeros_from_dim Checked [zlist 2 1] 1 3 = Panic.
Proof. eexists. eexists. split; [reflexivity|]. vm_compute. auto. Qed.

(** C15: every fixed-size constructor of the crate gives zeros of the dimension
    its type says, in both build profiles. *)
Theorem C15_fixed_sizes_partial : forall (T : Type) (SC : HScalar T) m (h : @heap T),
  (forall rs cs k, In (rs, cs, k) fixed_instances ->
    exists h' b, zeros_fixed m h k rs cs = Ok (h', b) /\ mat_size (@MBase T b) = (rs, cs) /\
      mat_dim (@MBase T b) = (size_N rs, size_N cs) /\ index_kind (bm_layout b) = k /\ fresh_zeros h h' b) /\
  (forall rs cs k n, In (rs, cs, k, n) fixed_vector_instances ->
    exists h' b, zeros_fixed_vector m h rs cs k n = Ok (h', b) /\ mat_size (@MBase T b) = (rs, cs) /\
      mat_dim (@MBase T b) = (size_N rs, size_N cs) /\ index_kind (bm_layout b) = k /\ fresh_zeros h h' b).
Proof. exact (fun T SC m h => conj (c15_matrices m h) (c15_vectors m h)). Qed.
Print Assumptions C15_fixed_sizes_partial.

(** Missing from C15 and false: the public [from_data] takes any layout. *)
Theorem C15_from_data_refuted : exists (c : container) l b,
  from_data Checked Fixed2 Fixed2 c l = Ok b /\
  mat_size (@MBase Z b) = (Fixed2, Fixed2) /\ mat_dim (@MBase Z b) <> (2, 2).
Proof.
  exists (mkContainer ArrayContainer (mkRegion 0 0 4)), (RowMajor (1, 3)). eexists.
  split; [reflexivity|]. split; [reflexivity|discriminate].
Qed.
Print Assumptions C15_from_data_refuted.

Example C15_example : In (Fixed3, Fixed2, KColumnMajor) fixed_instances /\
  exists h' b, zeros_fixed (T := Z) Checked [] KColumnMajor Fixed3 Fixed2 = Ok (h', b) /\
    get Checked h' (MBase b) 2 1 = Ok 0%Z /\ get Checked h' (MBase b) 2 2 = Panic.
Proof. split; [cbn; auto 20|]. eexists. eexists. split; [reflexivity|]. vm_compute. auto. Qed.

(** C41: [Matrix::length] is the number of entries, provided the run-time
    dimension is that of a vector - as for all vector constructors (C14). *)
Theorem C41_length_partial : forall (T : Type) (x : matrix T) n, mat_length x = Some n ->
  (fst (dim (mat_layout x)) = 1 -> mat_size x = (Fixed1, Dynamic) ->
     n = snd (mat_dim x) /\ n = fst (mat_dim x) * snd (mat_dim x)) /\
  (snd (dim (mat_layout x)) = 1 -> mat_size x = (Dynamic, Fixed1) ->
     n = fst (mat_dim x) /\ n = fst (mat_dim x) * snd (mat_dim x)).
Proof. exact @c41. Qed.
Print Assumptions C41_length_partial.

(** Missing and false: [BaseMatrix::length] of a row vector returns the size of
    the container, not the length of the vector. *)
Theorem C41_base_length_refuted : exists (c : container) b,
  from_data Checked Fixed1 Dynamic c (RowVector 3) = Ok b /\
  mat_length (@MBase Z b) = Some 3 /\ base_length b = 5.
Proof.
  exists (mkContainer VectorContainer (mkRegion 0 0 5)). eexists. split; [reflexivity|]. split; reflexivity.
Qed.
Print Assumptions C41_base_length_refuted.

(** ... and a "row vector" made from data can have several rows. *)
Theorem C41_from_data_refuted : exists (c : container) b,
  from_data Checked Fixed1 Dynamic c (RowMajor (2, 3)) = Ok b /\
  mat_length (@MBase Z b) = Some 3 /\ entry_count (bm_layout b) = 6.
Proof.
  exists (mkContainer VectorContainer (mkRegion 0 0 6)). eexists. split; [reflexivity|]. split; reflexivity.
Qed.
Print Assumptions C41_from_data_refuted.

Example C41_example :
  let b := mkBase (mkContainer VectorContainer (mkRegion 0 0 5)) (ArbitraryStrideColumnVector 3 2) Dynamic Fixed1 in
  mat_length (@MBase Z b) = Some 3 /\ snd (dim (bm_layout b)) = 1 /\ mat_size (@MBase Z b) = (Dynamic, Fixed1).
Proof. vm_compute. auto. Qed.
