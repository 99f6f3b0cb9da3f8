(** * Property C73: local changes that repair C02, C04, C07, C14, C15, C26 and C41.

    Property file: only the theorems of C73 and examples. The functions of [Corrected] are
    not in the library. *)

From Verif Require Import Machine F64 Layouts Memory Matrix Spec MatrixSpec ExprSpec.
From Verif Require Import Corrected CorrectedProofs ZScalar.
Local Open Scope N_scope.

(** With the present functions, the ones with parameters are those of the library. *)
Theorem C73_same : forall (T : Type) (SC : HScalar T),
  (forall m n i, upper_triangular_1d_2d_with (fun j => Ok (ut_p j)) m n i = upper_triangular_1d_2d m n i) /\
  (forall m (h : @heap T) k rows cols, zeros_from_dim_with from_dimension m h k rows cols = zeros_from_dim m h k rows cols) /\
  (forall m (h : @heap T) (x : matrix T), eval_with from_dimension m h x = eval m h x).
Proof. exact @c73_same. Qed.
Print Assumptions C73_same.

(** C02 and C04: in every layout whose entries can be counted, the 1d indices and the positions of
    the stored entries are in bijection. *)
Theorem C73_positions : forall m l, small l ->
  bijective (entry_count l) (stored l) (corrected_1d_2d m l) (fun p => convert_2d_1d m l (fst p) (snd p)).
Proof. exact c73_positions. Qed.
Print Assumptions C73_positions.

(** The integer root has no rounding. *)
Theorem C73_root : forall m i, 2 * i < usize_mod ->
  exists p, triangle_root m i = Ok p /\ p * (p + 1) <= 2 * i /\ 2 * i < (p + 1) * (p + 2).
Proof. exact root_spec. Qed.
Print Assumptions C73_root.

(** The largest matrix that can be counted, where the library has no correct answer (C04): its last
    index is the end of the first row. *)
Example C73_positions_example :
  small (UpperTriangular 4294967295) /\ small (ArbitraryStrideRowVector 5 3) /\
  corrected_1d_2d Checked (UpperTriangular 4294967295) 9223372034707292159 = Ok (0, 4294967294) /\
  corrected_1d_2d Checked (UpperTriangular 134217730) 9007199321849855 = Ok (2, 134217729) /\
  convert_1d_2d Checked (UpperTriangular 134217730) 9007199321849855 = Ok (1, 0) /\
  corrected_1d_2d Checked (ArbitraryStrideRowVector 5 3) 4 = Ok (0, 4) /\
  convert_1d_2d Checked (ArbitraryStrideRowVector 5 3) 4 = Ok (1, 4).
Proof. repeat split; timeout 300 (vm_compute; reflexivity). Qed.

(** C07 for upper triangular matrices: stored by rows from the first, the entry (0, 0) is at index 0, the
    indices follow the order of the rows, and C03 and C04 hold. *)
Theorem C73_packed : forall m n, small (UpperTriangular n) ->
  bijective (n * (n + 1) / 2) (fun p => fst p <= snd p /\ snd p < n) (packed_1d_2d m n) (fun p => packed_2d_1d m n (fst p) (snd p)) /\
  (0 < n -> packed_2d_1d m n 0 0 = Ok 0) /\
  (forall row col, col < row -> packed_2d_1d m n row col = Panic) /\
  (forall p q i j, fst p <= snd p -> snd p < n -> fst q <= snd q -> snd q < n ->
     packed_2d_1d m n (fst p) (snd p) = Ok i -> packed_2d_1d m n (fst q) (snd q) = Ok j -> (i < j <-> before_by_rows p q)).
Proof. exact c73_packed. Qed.
Print Assumptions C73_packed.

Example C73_packed_example :
  small (UpperTriangular 3) /\
  map (packed_1d_2d Checked 3) [0; 1; 2; 3; 4; 5] = map Ok [(0, 0); (0, 1); (0, 2); (1, 1); (1, 2); (2, 2)] /\
  packed_2d_1d Checked 4294967295 4294967294 4294967294 = Ok 9223372034707292159.
Proof. repeat split; timeout 300 (vm_compute; reflexivity). Qed.

(** C14: a layout is made from every dimension of its kind, and it has that dimension. *)
Theorem C73_from_dimension :
  (forall l, corrected_from_dimension (index_kind l) (dim l) = Ok (index_layout l)) /\
  (forall k d l, corrected_from_dimension k d = Ok l -> dim l = d /\ index_kind l = k) /\
  (forall k d, k <> KColumnVector -> corrected_from_dimension k d = from_dimension k d).
Proof. exact c73_from_dimension. Qed.
Print Assumptions C73_from_dimension.

Theorem C73_zeros : forall (T : Type) (SC : HScalar T) m (h : @heap T) l, entry_count l * Npos ssize <= isize_max ->
  exists h' b, zeros_from_dim_with corrected_from_dimension m h (index_kind l) (fst (dim l)) (snd (dim l)) = Ok (h', b) /\
    mat_dim (@MBase T b) = dim l /\ fresh_zeros h h' b.
Proof. exact @c73_zeros. Qed.
Print Assumptions C73_zeros.

(** C26: [eval] of every expression, column vectors included. *)
Theorem C73_eval : forall (T : Type) (SC : HScalar T) m (h : @heap T) x, valid h x ->
  (entry_count (mat_layout x) * Npos ssize <= isize_max ->
   exists h' b, eval_with corrected_from_dimension m h x = Ok (h', b) /\
     only_allocates h h' /\ (length h <= r_alloc (c_region (bm_data b)))%nat /\
     keeps_matrices h h' /\ base_valid h' b /\ container_is_mut (bm_data b) = true /\
     dim (bm_layout b) = mat_dim x /\ index_kind (bm_layout b) = index_kind (mat_layout x) /\
     forall p, stored (mat_layout x) p ->
       stored (bm_layout b) p /\ base_entry h' b p = entry h x p) /\
  (isize_max < entry_count (mat_layout x) * Npos ssize -> panics (eval_with corrected_from_dimension m h x)).
Proof. exact @c73_eval. Qed.
Print Assumptions C73_eval.

(** A column vector times 2, which the library cannot evaluate. *)
Example C73_eval_example :
  let x := MScalarMult (MBase (mkBase (mkContainer VectorContainer (mkRegion 0 0 3)) (ColumnVector 3) Dynamic Dynamic)) 2%Z in
  valid [[7; 8; 9]%Z] x /\ eval Checked [[7; 8; 9]%Z] x = Panic /\
  exists b, eval_with corrected_from_dimension Checked [[7; 8; 9]%Z] x = Ok ([[7; 8; 9]; [14; 16; 18]]%Z, b) /\ dim (bm_layout b) = (3, 1).
Proof.
  split; [|split; [timeout 300 (vm_compute; reflexivity)|eexists; split; timeout 300 (vm_compute; reflexivity)]].
  apply (AccessProofs.dense_base_valid [[7; 8; 9]%Z] _ (ColumnVector 3)); try reflexivity.
  split; [|discriminate]. eexists. split; [reflexivity|discriminate].
Qed.

(** C15: what [from_data] returns has the dimensions of its size types. Nothing else is rejected. *)
Theorem C73_sizes : forall m rs cs c l b,
  sized_from_data m rs cs c l = Ok b <->
  from_data m rs cs c l = Ok b /\ (rs <> Dynamic -> fst (dim l) = size_N rs) /\ (cs <> Dynamic -> snd (dim l) = size_N cs).
Proof. exact c73_sizes. Qed.
Print Assumptions C73_sizes.

(** C41: then both functions [length] return the number of entries. *)
Theorem C73_length : forall (T : Type) m c l b rs cs,
  sized_from_data m rs cs c l = Ok b -> small l ->
  corrected_length m b = Ok (entry_count l) /\
  forall n, mat_length (@MBase T b) = Some n -> n = fst (dim l) * snd (dim l).
Proof. exact c73_length. Qed.
Print Assumptions C73_length.

(** The witnesses of C15 and C41. *)
Example C73_length_example :
  let c := mkContainer VectorContainer (mkRegion 0 0 6) in
  sized_from_data Checked Fixed2 Fixed2 c (RowMajor (1, 3)) = Panic /\
  sized_from_data Checked Fixed1 Dynamic c (RowMajor (2, 3)) = Panic /\
  sized_from_data Checked Fixed1 Dynamic c (RowVector 3) = Ok (mkBase c (RowVector 3) Fixed1 Dynamic) /\
  small (RowVector 3) /\ corrected_length Checked (mkBase c (RowVector 3) Fixed1 Dynamic) = Ok 3 /\
  mat_length (@MBase Z (mkBase c (RowVector 3) Fixed1 Dynamic)) = Some 3.
Proof. repeat split; timeout 300 (vm_compute; reflexivity). Qed.
