(** * ProductSpec: the vocabulary of the properties about matrix products. *)

From Verif Require Import Machine Layouts Memory Matrix MatMul Spec MatrixSpec.
Local Open Scope N_scope.

(** Layouts matmul is implemented for ([StridedLayoutType]). *)
Definition strided_type (l : layout) : bool :=
  match l with UpperTriangular _ => false | _ => true end.

(** Dense matrices and vectors, and vectors with a stride. *)
Definition product_operand (l : layout) : bool := strided_type l && negb (strided_matrix l).

(** The strides a layout reports are the distances of its cells. *)
Definition true_strides (l : layout) : Prop :=
  exists s, stride l = Ok s /\
    forall p, in_range (dim l) p -> cell l p = fst p * fst s + snd p * snd s.

(** The dimensions allow C = A * B. *)
Definition compatible (a b c : N * N) : Prop :=
  snd a = fst b /\ fst c = fst a /\ snd c = snd b.

Section ProductSpec.
Context {T : Type} {SC : HScalar T}.
Notation heap := (@heap T).

(** In [h] the matrix [b] has the entries [F]. *)
Definition entries_are (h : heap) (b : base_matrix) (F : N -> N -> T) : Prop :=
  forall i j, in_range (dim (bm_layout b)) (i, j) -> base_entry h b (i, j) = Some (F i j).

(** No entry of [a] is an entry of [c]. *)
Definition no_overlap (a c : base_matrix) : Prop :=
  forall p q, in_range (dim (bm_layout a)) p -> in_range (dim (bm_layout c)) q ->
    entry_cell a p <> entry_cell c q.

(** [f 0 + f 1 + ... + f (n-1)]. *)
Fixpoint sum_below (n : nat) (f : N -> T) : T :=
  match n with
  | O => szero
  | S n' => sadd (sum_below n' f) (f (N.of_nat n'))
  end.

(** Multiplying a sum by one and adding zero times zero changes nothing. This is not
    demanded of every number: in floating point, minus zero plus zero is plus zero. *)
Definition exact_sums : Prop :=
  forall n (f : N -> T), sadd (smul sone (sum_below n f)) (smul szero szero) = sum_below n f.

(** Row [i] of A against column [j] of B: the pairs (A(i,l), B(l,j)), l < k. *)
Definition row_and_column (k : N) (A B : N -> N -> T) (i j : N) : list (T * T) :=
  map (fun l => (A i (N.of_nat l), B (N.of_nat l) j)) (seq 0 (N.to_nat k)).

(** The definition of a matrix product alpha A B + beta C, as a function on
    positions; [k] is the inner dimension. *)
Definition product_entry (k : N) (alpha : T) (A B : N -> N -> T) (beta : T) (C : N -> N -> T)
    (i j : N) : T :=
  sadd (smul alpha (sum_below (N.to_nat k) (fun l => smul (A i l) (B l j)))) (smul beta (C i j)).

(** The kernel computes, in the arithmetic of [T], what it documents. (Floating
    point kernels may sum in another order or with other roundings; they do not
    satisfy this, and the theorems for arbitrary kernels apply.) *)
Definition computes (kern : kernel T) : Prop :=
  forall sh i j alpha pairs beta old,
    kern sh i j alpha pairs beta old =
    sadd (smul alpha (fold_left (fun acc p => sadd acc (smul (fst p) (snd p))) pairs szero))
         (smul beta old).

(** The result does not depend on the strides, only on sizes and data. *)
Definition ignores_strides (kern : kernel T) : Prop :=
  forall sh sh', g_m sh = g_m sh' -> g_k sh = g_k sh' -> g_n sh = g_n sh' ->
  forall i j alpha pairs beta old, kern sh i j alpha pairs beta old = kern sh' i j alpha pairs beta old.

(** The new matrix [b] in [h'] has the entries [F]; nothing else changed. *)
Definition fresh_matrix (h h' : heap) (b : base_matrix) (d : N * N) (F : N -> N -> T) : Prop :=
  only_allocates h h' /\ base_valid h' b /\
  (length h <= r_alloc (c_region (bm_data b)))%nat /\ container_is_mut (bm_data b) = true /\
  dim (bm_layout b) = d /\ entries_are h' b F.

(** The same dimension and entries, maybe in different heaps, layouts and
    containers. *)
Definition same_entries (h : heap) (b : base_matrix) (h' : heap) (b' : base_matrix) : Prop :=
  dim (bm_layout b) = dim (bm_layout b') /\
  forall p, in_range (dim (bm_layout b)) p -> base_entry h b p = base_entry h' b' p.

(** The three products that [dot] exists for. *)
Inductive dot_shape := MatrixMatrix | RowMatrix | MatrixColumn.
Definition dot (shape : dot_shape) (kern : kernel T) (m : mode) (h : heap) (a b : base_matrix)
    : outcome (heap * base_matrix) :=
  match shape with
  | MatrixMatrix => dot_mat_mat kern m h a b
  | RowMatrix => dot_row_mat kern m h a b
  | MatrixColumn => dot_mat_col kern m h a b
  end.

(** A row vector has one row, a column vector one column. *)
Definition shape_fits (shape : dot_shape) (a b : N * N) : Prop :=
  match shape with
  | MatrixMatrix => True
  | RowMatrix => fst a = 1
  | MatrixColumn => snd b = 1
  end.

(** What a strided view looks like if one takes it for a dense matrix. *)
Definition as_dense (b : base_matrix) : base_matrix :=
  mkBase (bm_data b)
    (match bm_layout b with
     | ArbitraryStrideRowMajor d _ => RowMajor d
     | ArbitraryStrideColumnMajor d _ => ColumnMajor d
     | l => l
     end) (bm_rs b) (bm_cs b).

End ProductSpec.

(** A block of dimension [d] of a dense matrix whose entries are consecutive in
    memory: a single row, or full width (column-major: a single column, or full
    height). *)
Definition unbroken (l : layout) (d : N * N) : Prop :=
  if column_ordered l then snd d = 1 \/ fst d = fst (dim l) else fst d = 1 \/ snd d = snd (dim l).

(** [x] is such a block of a dense matrix. *)
Definition unbroken_block {T : Type} (h : @heap T) (x : base_matrix) : Prop :=
  exists m mut parent tl d,
    base_valid h parent /\ dense_matrix (bm_layout parent) = true /\ nonempty d /\
    inside (dim (bm_layout parent)) tl d /\ unbroken (bm_layout parent) d /\
    block m mut parent tl d = Ok x.

(** [x] is a block of a dense matrix, of the parent layout [l] and dimension [d]. *)
Definition block_of_dense {T : Type} (h : @heap T) (l : layout) (d : N * N) (x : base_matrix) : Prop :=
  exists m mut parent tl,
    base_valid h parent /\ bm_layout parent = l /\ dense_matrix l = true /\ nonempty d /\
    inside (dim l) tl d /\ block m mut parent tl d = Ok x.

(** The same allocations of the same sizes, maybe with other contents. *)
Definition same_sizes {T : Type} (h h' : @heap T) : Prop := map (@length T) h' = map (@length T) h.

(** In different allocations. *)
Definition apart (x y : base_matrix) : Prop :=
  r_alloc (c_region (bm_data x)) <> r_alloc (c_region (bm_data y)).

(** ** Complex numbers *)

Record real_ops (R : Type) := { rzero : R; rone : R; radd : R -> R -> R; rsub : R -> R -> R; rmul : R -> R -> R }.
Arguments rzero {R} r.
Arguments rone {R} r.
Arguments radd {R} r.
Arguments rsub {R} r.
Arguments rmul {R} r.

(** Complex arithmetic over [R]; an item takes [2 * size] bytes. *)
Definition complex_scalar {R : Type} (o : real_ops R) (size : positive) : HScalar (complex R) :=
  {| szero := mkComplex (rzero o) (rzero o);
     sone := mkComplex (rone o) (rzero o);
     sadd := fun z w => mkComplex (radd o (re z) (re w)) (radd o (im z) (im w));
     smul := fun z w => mkComplex (rsub o (rmul o (re z) (re w)) (rmul o (im z) (im w)))
                                  (radd o (rmul o (re z) (im w)) (rmul o (im z) (re w)));
     ssize := (2 * size)%positive |}.

(** The arithmetic the kernels cgemm and zgemm document, on arrays [re, im]. *)
Definition array_scalar {R : Type} (o : real_ops R) (size : positive) : HScalar (R * R) :=
  {| szero := (rzero o, rzero o);
     sone := (rone o, rzero o);
     sadd := fun z w => (radd o (fst z) (fst w), radd o (snd z) (snd w));
     smul := fun z w => (rsub o (rmul o (fst z) (fst w)) (rmul o (snd z) (snd w)),
                         radd o (rmul o (fst z) (snd w)) (rmul o (snd z) (fst w)));
     ssize := (2 * size)%positive |}.
