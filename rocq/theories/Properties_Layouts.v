(** * Properties C01, C02, C03, C05 - C08: the layouts.

    (C04, the floating point index computation, is in Properties_F64.v.) *)

From Verif Require Import Machine Layouts Spec LayoutProofs.
Local Open Scope N_scope.

(** C01: for row-major and column-major layouts, dense or strided, the 1d
    indices below the element count and the in-range positions are in
    one-to-one correspondence, in row by row (column by column) order. *)
Theorem C01_matrix_layout_bijection : forall m l,
  row_ordered l || column_ordered l = true ->
  fst (dim l) * snd (dim l) < usize_mod ->
  number_of_elements m l = Ok (fst (dim l) * snd (dim l)) /\
  bijective (fst (dim l) * snd (dim l)) (in_range (dim l))
    (convert_1d_2d m l) (fun p => convert_2d_1d m l (fst p) (snd p)) /\
  ordered (fst (dim l) * snd (dim l))
    (if row_ordered l then before_by_rows else before_by_columns) (convert_1d_2d m l).
Proof. exact c01. Qed.
Print Assumptions C01_matrix_layout_bijection.

Example C01_example :
  let l := ArbitraryStrideColumnMajor (3, 4) (2, 7) in
  row_ordered l || column_ordered l = true /\ fst (dim l) * snd (dim l) < usize_mod /\
  map (convert_1d_2d Checked l) [0; 1; 5; 11] = [Ok (0, 0); Ok (1, 0); Ok (2, 1); Ok (2, 3)] /\
  convert_2d_1d Checked l 2 1 = Ok 5.
Proof. vm_compute. intuition congruence. Qed.

(** C02 as stated fails for every vector layout, every length and every index:
    the position is never in range (row 1 of a row vector, column 1 of a column
    vector). *)
Theorem C02_vector_position_refuted : forall m l i,
  row_vector_like l || column_vector_like l = true ->
  exists p, convert_1d_2d m l i = Ok p /\ ~ in_range (dim l) p.
Proof. exact c02_refuted. Qed.
Print Assumptions C02_vector_position_refuted.

(** The position that is computed instead. *)
Theorem C02_vector_position_exact_partial : forall m l i,
  (row_vector_like l = true -> convert_1d_2d m l i = Ok (1, i)) /\
  (column_vector_like l = true -> convert_1d_2d m l i = Ok (i, 1)).
Proof. exact c02_exact. Qed.
Print Assumptions C02_vector_position_exact_partial.

(** What holds of C02: going to 2d and back is the identity, and the 2d to 1d
    conversion numbers the in-range positions. Missing: the position computed
    from a 1d index being the in-range one. *)
Theorem C02_vector_round_trip_partial : forall m l,
  row_vector_like l || column_vector_like l = true ->
  (forall i, exists p, convert_1d_2d m l i = Ok p /\ convert_2d_1d m l (fst p) (snd p) = Ok i) /\
  numbering (fst (dim l) * snd (dim l)) (in_range (dim l)) (fun p => convert_2d_1d m l (fst p) (snd p)).
Proof. exact (fun m l H => conj (fun i => c02_round_trip m l i H) (c02_numbering m l H)). Qed.
Print Assumptions C02_vector_round_trip_partial.

Example C02_example :
  let l := ArbitraryStrideRowVector 5 3 in
  row_vector_like l || column_vector_like l = true /\
  convert_1d_2d Checked l 2 = Ok (1, 2) /\ dim l = (1, 5) /\ convert_2d_1d Checked l 1 2 = Ok 2.
Proof. vm_compute. intuition congruence. Qed.

(** C03: upper triangular storage. *)
Theorem C03_upper_triangular_storage : forall m n, fits (UpperTriangular n) ->
  number_of_elements m (UpperTriangular n) = Ok (n * (n + 1) / 2) /\
  numbering (n * (n + 1) / 2) (fun p => fst p <= snd p /\ snd p < n)
    (fun p => convert_2d_1d m (UpperTriangular n) (fst p) (snd p)) /\
  (forall row col, col < row -> convert_2d_1d m (UpperTriangular n) row col = Panic).
Proof. exact c03. Qed.
Print Assumptions C03_upper_triangular_storage.

Example C03_example :
  fits (UpperTriangular 4294967295) /\
  map (fun p => convert_2d_1d Checked (UpperTriangular 3) (fst p) (snd p))
    [(2, 2); (1, 1); (1, 2); (0, 0); (0, 1); (0, 2); (1, 0)] =
  [Ok 0; Ok 1; Ok 2; Ok 3; Ok 4; Ok 5; Panic].
Proof. split; [vm_compute; congruence | reflexivity]. Qed.

(** Beyond what can be allocated the element count n(n+1)/2 of a triangular
    layout is not computed correctly although it fits in usize, since n(n+1)
    does not. *)
Theorem C03_huge_count_refuted : exists n,
  n * (n + 1) / 2 < usize_mod /\
  number_of_elements Checked (UpperTriangular n) = Panic /\
  number_of_elements Wrapping (UpperTriangular n) <> Ok (n * (n + 1) / 2).
Proof. exists 4294967296. vm_compute. intuition congruence. Qed.
Print Assumptions C03_huge_count_refuted.

(** C05, raw indices: 1d and 2d indexing reach the same cell (the two outcomes
    are equal even when the address computation overflows). The statement about
    get and get1d is C05_get_get1d in Properties_Access.v. *)
Theorem C05_raw_index : forall m l r c i, fits l -> stored l (r, c) ->
  convert_2d_1d m l r c = Ok i -> convert_1d_raw m l i = convert_2d_raw m l r c.
Proof. exact c05_raw. Qed.
Print Assumptions C05_raw_index.

Example C05_example :
  let l := ArbitraryStrideRowMajor (3, 4) (10, 2) in
  fits l /\ stored l (2, 3) /\ convert_2d_1d Checked l 2 3 = Ok 11 /\
  convert_1d_raw Checked l 11 = Ok 26 /\ convert_2d_raw Checked l 2 3 = Ok 26.
Proof. vm_compute. intuition congruence. Qed.

(** C06 for all strided layouts but the arbitrary stride matrix layouts. *)
Theorem C06_stride_partial : forall m l,
  is_strided_layout l = true -> strided_matrix l = false -> fits l ->
  (has_strides l = true -> addressable l) ->
  exists s, stride l = Ok s /\ stride_contract (convert_2d_raw m l) (dim l) s.
Proof. exact c06. Qed.
Print Assumptions C06_stride_partial.

Example C06_example :
  let l := ColumnMajor (3, 4) in
  is_strided_layout l = true /\ strided_matrix l = false /\ fits l /\ has_strides l = false /\
  in_range (dim l) (1, 2) /\ in_range (dim l) (1, 3) /\
  convert_2d_raw Checked l 1 2 = Ok 7 /\ convert_2d_raw Checked l 1 3 = Ok 10 /\ stride l = Ok (1, 3).
Proof. vm_compute. intuition congruence. Qed.

(** C06 fails for every arbitrary stride matrix layout with at least two rows
    and columns whose strides are not those of a dense matrix: [stride] does not
    return the strides the layout was made with. *)
Theorem C06_strided_matrix_refuted : forall m l s,
  strided_matrix l = true -> fits l -> addressable l ->
  stride l = Ok s -> 2 <= fst (dim l) -> 2 <= snd (dim l) -> true_stride l <> s ->
  ~ stride_contract (convert_2d_raw m l) (dim l) s.
Proof. exact c06_refuted. Qed.
Print Assumptions C06_strided_matrix_refuted.

(** A witness: the layout of a 3 x 3 block of a row-major matrix with 4 columns. *)
Theorem C06_witness_refuted : exists l s,
  is_strided_layout l = true /\ stride l = Ok s /\
  convert_2d_raw Checked l 0 0 = Ok 0 /\ convert_2d_raw Checked l 1 0 <> Ok (0 + fst s).
Proof. exists (ArbitraryStrideRowMajor (3, 3) (4, 1)), (3, 1). vm_compute. intuition congruence. Qed.
Print Assumptions C06_witness_refuted.

(** The layout without constant strides gives no wrong ones: [stride] panics there, and only there. *)
Theorem C06_no_stride_partial : forall l, stride l = Panic <-> is_strided_layout l = false.
Proof. exact c06_panics. Qed.
Print Assumptions C06_no_stride_partial.

(** C07 for all layouts but the upper triangular one. *)
Theorem C07_first_entry_partial : forall m l,
  upper_triangular_like l = false -> convert_2d_raw m l 0 0 = Ok 0.
Proof. exact c07. Qed.
Print Assumptions C07_first_entry_partial.

Example C07_example : upper_triangular_like (ArbitraryStrideColumnVector 3 5) = false.
Proof. reflexivity. Qed.

(** C07 fails for upper triangular matrices: the first entry is at n(n-1)/2,
    which is 0 only for n = 1. *)
Theorem C07_upper_triangular_refuted : forall m n, 1 <= n -> fits (UpperTriangular n) ->
  convert_2d_raw m (UpperTriangular n) 0 0 = Ok (n * (n - 1) / 2).
Proof. exact c07_refuted. Qed.
Print Assumptions C07_upper_triangular_refuted.

Example C07_refuted_example : convert_2d_raw Checked (UpperTriangular 2) 0 0 = Ok 1.
Proof. reflexivity. Qed.

(** C08, dense, vector and triangular layouts. *)
Theorem C08_distinct_cells_dense : forall m l, has_strides l = false -> fits l ->
  numbering (entry_count l) (stored l) (fun p => convert_2d_raw m l (fst p) (snd p)) /\
  numbering (entry_count l) (fun i => i < entry_count l) (convert_1d_raw m l).
Proof. exact c08_dense. Qed.
Print Assumptions C08_distinct_cells_dense.

Example C08_dense_example :
  let l := UpperTriangular 3 in
  has_strides l = false /\ fits l /\ entry_count l = 6 /\ stored l (1, 2) /\
  convert_2d_raw Checked l 1 2 = Ok 2.
Proof. vm_compute. intuition congruence. Qed.

(** C08, strided layouts one stride of which reaches past the extent of the
    other dimension. *)
Theorem C08_distinct_cells_strided : forall m l,
  has_strides l = true -> fits l -> addressable l -> separated (dim l) (true_stride l) ->
  injective (stored l) (fun p => convert_2d_raw m l (fst p) (snd p)) /\
  injective (fun i => i < entry_count l) (convert_1d_raw m l).
Proof. exact c08_strided. Qed.
Print Assumptions C08_distinct_cells_strided.

Example C08_strided_example :
  let l := ArbitraryStrideRowMajor (3, 3) (4, 1) in
  has_strides l = true /\ fits l /\ addressable l /\ separated (dim l) (true_stride l).
Proof.
  split; [reflexivity|]. split; [vm_compute; congruence|]. split.
  - intros r c [Hr Hc]. cbn [fst snd dim true_stride] in *.
    apply N.lt_trans with 100; [lia | reflexivity].
  - left. cbn [fst snd dim true_stride]. lia.
Qed.
