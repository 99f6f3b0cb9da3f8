(** * Properties C32 - C36 and C42: matrix products.

    [kern] is what the external gemm routine computes per entry. Theorems with
    an arbitrary [kern] say which entries it is given and where its results go;
    theorems with [computes kern] say what follows if it computes its documented
    formula in the arithmetic of the scalar type. *)

From Verif Require Import Machine Layouts Memory Matrix MatMul Spec MatrixSpec ExprSpec ProductSpec.
From Verif Require Import AccessProofs BlockProofs ExprProofs ProductProofs ProductExact ZScalar.
Local Open Scope N_scope.

(** For the examples: A is 2 x 3 row-major, B 3 x 2 column-major, C 2 x 2
    row-major, and the kernel over the integers. *)
Definition ex_product_heap : @heap Z :=
  [[1; 2; 3; 4; 5; 6]; [7; 8; 9; 10; 11; 12]; [1; 1; 1; 1; 55]]%Z.
Definition ex_a : base_matrix :=
  mkBase (mkContainer VectorContainer (mkRegion 0 0 6)) (RowMajor (2, 3)) Dynamic Dynamic.
Definition ex_b : base_matrix :=
  mkBase (mkContainer VectorContainer (mkRegion 1 0 6)) (ColumnMajor (3, 2)) Dynamic Dynamic.
Definition ex_c : base_matrix :=
  mkBase (mkContainer VectorContainer (mkRegion 2 0 5)) (RowMajor (2, 2)) Dynamic Dynamic.
Definition ex_kernel : kernel Z := fun _ _ _ alpha pairs beta old =>
  (alpha * fold_left (fun acc p => acc + fst p * snd p) pairs 0 + beta * old)%Z.

Lemma ex_kernel_computes : computes ex_kernel.
Proof. intros sh i j alpha pairs beta old. reflexivity. Qed.

Lemma ex_operands_valid :
  base_valid ex_product_heap ex_a /\ base_valid ex_product_heap ex_b /\ base_valid ex_product_heap ex_c.
Proof.
  split; [|split].
  - apply dense_base_valid with (l := RowMajor (2, 3)); try reflexivity.
    split; [|discriminate]. eexists. split; [reflexivity|discriminate].
  - apply dense_base_valid with (l := ColumnMajor (3, 2)); try reflexivity.
    split; [|discriminate]. eexists. split; [reflexivity|discriminate].
  - apply dense_base_valid with (l := RowMajor (2, 2)); try reflexivity.
    + split; [|discriminate]. eexists. split; [reflexivity|discriminate].
    + discriminate.
Qed.

Lemma ex_operands_apart : no_overlap ex_a ex_c /\ no_overlap ex_b ex_c.
Proof. split; intros p q _ _ E; discriminate E. Qed.

(** C32: dense matrices and vectors are operands with true strides. *)
Theorem C32_operands : forall l, product_operand l = true -> true_strides l.
Proof. exact operand_true. Qed.
Print Assumptions C32_operands.

Theorem C32_matmul : forall (T : Type) kern (h : @heap T) alpha a b beta c A B C,
  base_valid h a -> base_valid h b -> base_valid h c ->
  true_strides (bm_layout a) -> true_strides (bm_layout b) -> true_strides (bm_layout c) ->
  no_aliasing (bm_layout c) -> no_overlap a c -> no_overlap b c ->
  compatible (dim (bm_layout a)) (dim (bm_layout b)) (dim (bm_layout c)) ->
  entries_are h a A -> entries_are h b B -> entries_are h c C ->
  exists h' sh, matmul kern h alpha a b beta c = Ok h' /\
    changes_only (fun q => exists p, in_range (dim (bm_layout c)) p /\ q = entry_cell c p) h h' /\
    g_m sh = fst (dim (bm_layout a)) /\ g_k sh = snd (dim (bm_layout a)) /\ g_n sh = snd (dim (bm_layout b)) /\
    entries_are h' c (fun i j =>
      kern sh i j alpha (row_and_column (snd (dim (bm_layout a))) A B i j) beta (C i j)).
Proof. exact @c32. Qed.
Print Assumptions C32_matmul.

Theorem C32_matmul_exact : forall (T : Type) (SC : HScalar T) kern (h : @heap T) alpha a b beta c A B C,
  computes kern ->
  base_valid h a -> base_valid h b -> base_valid h c ->
  true_strides (bm_layout a) -> true_strides (bm_layout b) -> true_strides (bm_layout c) ->
  no_aliasing (bm_layout c) -> no_overlap a c -> no_overlap b c ->
  compatible (dim (bm_layout a)) (dim (bm_layout b)) (dim (bm_layout c)) ->
  entries_are h a A -> entries_are h b B -> entries_are h c C ->
  exists h', matmul kern h alpha a b beta c = Ok h' /\
    entries_are h' c (product_entry (snd (dim (bm_layout a))) alpha A B beta C).
Proof. exact @c32_exact. Qed.
Print Assumptions C32_matmul_exact.

Example C32_example :
  (base_valid ex_product_heap ex_a /\ base_valid ex_product_heap ex_b /\ base_valid ex_product_heap ex_c) /\
  (no_overlap ex_a ex_c /\ no_overlap ex_b ex_c) /\ no_aliasing (bm_layout ex_c) /\
  product_operand (bm_layout ex_a) = true /\ product_operand (bm_layout ex_b) = true /\
  product_operand (bm_layout ex_c) = true /\ computes ex_kernel /\
  compatible (dim (bm_layout ex_a)) (dim (bm_layout ex_b)) (dim (bm_layout ex_c)) /\
  matmul ex_kernel ex_product_heap 2%Z ex_a ex_b 3%Z ex_c =
  Ok [[1; 2; 3; 4; 5; 6]; [7; 8; 9; 10; 11; 12]; [103; 139; 247; 337; 55]]%Z.
Proof.
  split; [exact ex_operands_valid|]. split; [exact ex_operands_apart|]. split; [discriminate|].
  split; [reflexivity|]. split; [reflexivity|]. split; [reflexivity|].
  split; [exact ex_kernel_computes|]. split; [repeat split|]. reflexivity.
Qed.

(** C33: matmul panics exactly on incompatible dimensions - then it did not
    write anything, since the outcome has no heap and the check comes before the
    call of the kernel - and otherwise changes the entries of C only. No
    assumption about overlaps is needed. For views see C34. *)
Theorem C33_only_c_partial : forall (T : Type) (SC : HScalar T) kern (h : @heap T) alpha a b beta c,
  base_valid h a -> base_valid h b -> base_valid h c ->
  true_strides (bm_layout a) -> true_strides (bm_layout b) -> true_strides (bm_layout c) ->
  (panics (matmul kern h alpha a b beta c) <->
   ~ compatible (dim (bm_layout a)) (dim (bm_layout b)) (dim (bm_layout c))) /\
  (compatible (dim (bm_layout a)) (dim (bm_layout b)) (dim (bm_layout c)) ->
   exists h', matmul kern h alpha a b beta c = Ok h' /\
     changes_only (fun q => exists p, in_range (dim (bm_layout c)) p /\ q = entry_cell c p) h h' /\
     forall b', base_valid h b' ->
       (forall p q, stored (bm_layout b') p -> in_range (dim (bm_layout c)) q ->
          entry_cell b' p <> entry_cell c q) ->
       base_valid h' b' /\ forall p, stored (bm_layout b') p -> base_entry h' b' p = base_entry h b' p).
Proof. exact @c33. Qed.
Print Assumptions C33_only_c_partial.

(** The check of the dimensions holds for all operands, views included. *)
Theorem C33_incompatible : forall (T : Type) kern (h : @heap T) alpha a b beta c,
  ~ compatible (dim (bm_layout a)) (dim (bm_layout b)) (dim (bm_layout c)) ->
  panics (matmul kern h alpha a b beta c).
Proof. exact @matmul_incompatible. Qed.
Print Assumptions C33_incompatible.

Example C33_example :
  matmul ex_kernel ex_product_heap 2%Z ex_a ex_b 3%Z ex_a = Panic /\
  ~ compatible (dim (bm_layout ex_a)) (dim (bm_layout ex_b)) (dim (bm_layout ex_a)).
Proof. split; [reflexivity|]. intros (_ & _ & H). discriminate H. Qed.

(** C34: the product of views is right if the views are unbroken blocks. *)
Theorem C34_views_partial : forall (T : Type) (SC : HScalar T) kern (h : @heap T) alpha a b beta c A B C,
  computes kern ->
  (product_operand (bm_layout a) = true /\ base_valid h a \/ unbroken_block h a) ->
  (product_operand (bm_layout b) = true /\ base_valid h b \/ unbroken_block h b) ->
  unbroken_block h c \/ (product_operand (bm_layout c) = true /\ no_aliasing (bm_layout c) /\ base_valid h c) ->
  no_overlap a c -> no_overlap b c ->
  compatible (dim (bm_layout a)) (dim (bm_layout b)) (dim (bm_layout c)) ->
  entries_are h a A -> entries_are h b B -> entries_are h c C ->
  exists h', matmul kern h alpha a b beta c = Ok h' /\
    entries_are h' c (product_entry (snd (dim (bm_layout a))) alpha A B beta C) /\
    changes_only (fun q => exists p, in_range (dim (bm_layout c)) p /\ q = entry_cell c p) h h'.
Proof. exact @c34. Qed.
Print Assumptions C34_views_partial.

(** In general matmul takes every strided view for the dense matrix that starts
    at its first cell. *)
Theorem C34_views_as_dense : forall (T : Type) kern (h : @heap T) alpha a b beta c,
  matmul kern h alpha a b beta c = matmul kern h alpha (as_dense a) (as_dense b) beta (as_dense c).
Proof. exact @c34_as_dense. Qed.
Print Assumptions C34_views_as_dense.

(** Views of a 3 x 3 matrix P: its upper left 2 x 2 block and its last two
    rows. I is the 2 x 2 identity, D a 2 x 2 destination. *)
Definition ex_view_heap : @heap Z := [[1; 2; 3; 4; 5; 6; 7; 8; 9]; [1; 0; 0; 1]; [0; 0; 0; 0]]%Z.
Definition ex_parent : base_matrix :=
  mkBase (mkContainer VectorContainer (mkRegion 0 0 9)) (RowMajor (3, 3)) Dynamic Dynamic.
Definition ex_identity : base_matrix :=
  mkBase (mkContainer VectorContainer (mkRegion 1 0 4)) (RowMajor (2, 2)) Dynamic Dynamic.
Definition ex_dest : base_matrix :=
  mkBase (mkContainer VectorContainer (mkRegion 2 0 4)) (RowMajor (2, 2)) Dynamic Dynamic.

Lemma ex_parent_valid : base_valid ex_view_heap ex_parent.
Proof.
  apply dense_base_valid with (l := RowMajor (3, 3)); try reflexivity.
  split; [|discriminate]. eexists. split; [reflexivity|discriminate].
Qed.

Example C34_example : exists x, block Checked false ex_parent (1, 0) (2, 3) = Ok x /\
  unbroken_block ex_view_heap x /\ compatible (dim (bm_layout ex_identity)) (dim (bm_layout x)) (2, 3).
Proof.
  eexists. split; [reflexivity|]. split; [|repeat split].
  exists Checked, false, ex_parent, (1, 0), (2, 3). split; [exact ex_parent_valid|].
  split; [reflexivity|]. split; [split; discriminate|]. split; [split; discriminate|].
  split; [right; reflexivity|reflexivity].
Qed.

(** The block as A or B: the entry (1, 0) of the product with the identity
    should be 4, but is 3. *)
Theorem C34_operand_view_refuted : exists (h : @heap Z) kern p i c x,
  base_valid h p /\ computes kern /\ block Checked false p (0, 0) (2, 2) = Ok x /\
  get Checked h (MBase x) 1 0 = Ok 4%Z /\
  (forall r s, r < 2 -> s < 2 -> base_entry h i (r, s) = Some (if r =? s then 1%Z else 0%Z)) /\
  (exists h', matmul kern h 1%Z x i 0%Z c = Ok h' /\ get Checked h' (MBase c) 1 0 = Ok 3%Z) /\
  (exists h', matmul kern h 1%Z i x 0%Z c = Ok h' /\ get Checked h' (MBase c) 1 0 = Ok 3%Z).
Proof.
  exists ex_view_heap, ex_kernel, ex_parent, ex_identity, ex_dest. eexists.
  split; [exact ex_parent_valid|]. split; [exact ex_kernel_computes|].
  split; [reflexivity|]. split; [reflexivity|]. split; [|split].
  - intros r s Hr Hs. assert (R : r = 0 \/ r = 1) by lia. assert (S : s = 0 \/ s = 1) by lia.
    destruct R as [-> | ->], S as [-> | ->]; reflexivity.
  - eexists. split; reflexivity.
  - eexists. split; reflexivity.
Qed.
Print Assumptions C34_operand_view_refuted.

(** The block as C: the entry (0, 2) of the parent, outside the block, is
    overwritten, and the entry (1, 0) of the block is not. *)
Theorem C34_destination_view_refuted : exists (h : @heap Z) kern p i x h',
  base_valid h p /\ computes kern /\ block Checked true p (0, 0) (2, 2) = Ok x /\
  matmul kern h 1%Z i i 0%Z x = Ok h' /\
  get Checked h (MBase p) 0 2 = Ok 3%Z /\ get Checked h' (MBase p) 0 2 = Ok 0%Z /\
  get Checked h (MBase x) 1 0 = Ok 4%Z /\ get Checked h' (MBase x) 1 0 = Ok 1%Z.
Proof.
  exists ex_view_heap, ex_kernel, ex_parent, ex_identity. do 2 eexists.
  split; [exact ex_parent_valid|]. split; [exact ex_kernel_computes|].
  split; [reflexivity|]. split; [reflexivity|]. vm_compute. auto.
Qed.
Print Assumptions C34_destination_view_refuted.

(** What matmul computes for blocks of any width: the product of what they look
    like when taken for dense matrices. It stays within their containers. *)
Theorem C34_views_exact_partial : forall (T : Type) (SC : HScalar T) kern (h : @heap T) alpha a b beta c A B C, computes kern ->
  (product_operand (bm_layout a) = true /\ base_valid h a \/ exists l d, block_of_dense h l d a) ->
  (product_operand (bm_layout b) = true /\ base_valid h b \/ exists l d, block_of_dense h l d b) ->
  (product_operand (bm_layout c) = true /\ no_aliasing (bm_layout c) /\ base_valid h c \/
   exists l d, block_of_dense h l d c) ->
  no_overlap (as_dense a) (as_dense c) -> no_overlap (as_dense b) (as_dense c) ->
  compatible (dim (bm_layout a)) (dim (bm_layout b)) (dim (bm_layout c)) ->
  entries_are h (as_dense a) A -> entries_are h (as_dense b) B -> entries_are h (as_dense c) C ->
  exists h', matmul kern h alpha a b beta c = Ok h' /\
    entries_are h' (as_dense c) (product_entry (snd (dim (bm_layout a))) alpha A B beta C) /\
    changes_only (fun q => exists p, in_range (dim (bm_layout c)) p /\ q = entry_cell (as_dense c) p) h h'.
Proof. exact @c34_views_exact. Qed.
Print Assumptions C34_views_exact_partial.

(** Hence the blocks of [C34_views_partial] are all for which the product is
    right: for every narrower block there are contents for which it is wrong.
    As left or right operand: the block is zero, but its product is not. *)
Theorem C34_narrow_a_refuted : forall kern (h : @heap Z) l d x b c, computes kern ->
  block_of_dense h l d x -> ~ unbroken l d ->
  product_operand (bm_layout b) = true -> base_valid h b ->
  product_operand (bm_layout c) = true -> no_aliasing (bm_layout c) -> base_valid h c ->
  apart x b -> apart x c -> apart b c ->
  compatible (dim (bm_layout x)) (dim (bm_layout b)) (dim (bm_layout c)) -> 1 <= snd (dim (bm_layout b)) ->
  exists h1 h2 p, same_sizes h h1 /\
    entries_are h1 x (fun _ _ => 0%Z) /\ entries_are h1 b (fun _ _ => 1%Z) /\ entries_are h1 c (fun _ _ => 0%Z) /\
    matmul kern h1 1%Z x b 0%Z c = Ok h2 /\ in_range (dim (bm_layout c)) p /\ base_entry h2 c p = Some 1%Z.
Proof. exact c34_narrow_a. Qed.
Print Assumptions C34_narrow_a_refuted.

Theorem C34_narrow_b_refuted : forall kern (h : @heap Z) l d x a c, computes kern ->
  block_of_dense h l d x -> ~ unbroken l d ->
  product_operand (bm_layout a) = true -> base_valid h a ->
  product_operand (bm_layout c) = true -> no_aliasing (bm_layout c) -> base_valid h c ->
  apart x a -> apart x c -> apart a c ->
  compatible (dim (bm_layout a)) (dim (bm_layout x)) (dim (bm_layout c)) -> 1 <= fst (dim (bm_layout a)) ->
  exists h1 h2 p, same_sizes h h1 /\
    entries_are h1 a (fun _ _ => 1%Z) /\ entries_are h1 x (fun _ _ => 0%Z) /\ entries_are h1 c (fun _ _ => 0%Z) /\
    matmul kern h1 1%Z a x 0%Z c = Ok h2 /\ in_range (dim (bm_layout c)) p /\ base_entry h2 c p = Some 1%Z.
Proof. exact c34_narrow_b. Qed.
Print Assumptions C34_narrow_b_refuted.

(** As destination: a cell outside of the block is overwritten. *)
Theorem C34_narrow_c_refuted : forall kern (h : @heap Z) l d x a b, computes kern ->
  block_of_dense h l d x -> ~ unbroken l d ->
  product_operand (bm_layout a) = true -> base_valid h a ->
  product_operand (bm_layout b) = true -> base_valid h b ->
  apart x a -> apart x b ->
  compatible (dim (bm_layout a)) (dim (bm_layout b)) (dim (bm_layout x)) -> 1 <= snd (dim (bm_layout a)) ->
  exists h1 h2 q, same_sizes h h1 /\ matmul kern h1 1%Z a b 0%Z x = Ok h2 /\
    (forall p, in_range (dim (bm_layout x)) p -> entry_cell x p <> q) /\
    hget h1 (fst q) (snd q) = Some 0%Z /\ hget h2 (fst q) (snd q) = Some (Z.of_N (snd (dim (bm_layout a)))).
Proof. exact c34_narrow_c. Qed.
Print Assumptions C34_narrow_c_refuted.

Example C34_narrow_example : exists x,
  block_of_dense ex_view_heap (RowMajor (3, 3)) (2, 2) x /\ ~ unbroken (RowMajor (3, 3)) (2, 2) /\
  apart x ex_identity /\ apart x ex_dest /\ apart ex_identity ex_dest /\
  compatible (dim (bm_layout x)) (dim (bm_layout ex_identity)) (dim (bm_layout ex_dest)) /\
  dim (bm_layout (as_dense x)) = (2, 2) /\
  base_entry ex_view_heap x (1, 0) = Some 4%Z /\ base_entry ex_view_heap (as_dense x) (1, 0) = Some 3%Z.
Proof.
  eexists. split.
  { exists Checked, false, ex_parent, (0, 0). split; [exact ex_parent_valid|].
    split; [reflexivity|]. split; [reflexivity|]. split; [split; discriminate|].
    split; [split; discriminate|reflexivity]. }
  split; [intros [H | H]; discriminate H|]. repeat split; try discriminate; reflexivity.
Qed.

(** C35: [dot]. With overflow checks it panics exactly on a mismatch of the
    dimensions or if the result cannot be allocated. *)
Theorem C35_dot_partial : forall (T : Type) (SC : HScalar T) shape kern m (h : @heap T) a b A B,
  base_valid h a -> base_valid h b -> true_strides (bm_layout a) -> true_strides (bm_layout b) ->
  shape_fits shape (dim (bm_layout a)) (dim (bm_layout b)) ->
  entries_are h a A -> entries_are h b B ->
  (snd (dim (bm_layout a)) = fst (dim (bm_layout b)) ->
   fst (dim (bm_layout a)) * snd (dim (bm_layout b)) * Npos ssize <= isize_max ->
   exists h' r sh, dot shape kern m h a b = Ok (h', r) /\
     g_m sh = fst (dim (bm_layout a)) /\ g_k sh = snd (dim (bm_layout a)) /\ g_n sh = snd (dim (bm_layout b)) /\
     fresh_matrix h h' r (fst (dim (bm_layout a)), snd (dim (bm_layout b))) (fun i j =>
       kern sh i j sone (row_and_column (snd (dim (bm_layout a))) A B i j) szero szero)) /\
  (snd (dim (bm_layout a)) <> fst (dim (bm_layout b)) -> panics (dot shape kern m h a b)) /\
  (isize_max < fst (dim (bm_layout a)) * snd (dim (bm_layout b)) * Npos ssize ->
   panics (dot shape kern Checked h a b)).
Proof. exact @c35. Qed.
Print Assumptions C35_dot_partial.

Theorem C35_dot_exact : forall (T : Type) (SC : HScalar T) shape kern m (h : @heap T) a b A B,
  computes kern -> exact_sums (T := T) ->
  base_valid h a -> base_valid h b -> true_strides (bm_layout a) -> true_strides (bm_layout b) ->
  shape_fits shape (dim (bm_layout a)) (dim (bm_layout b)) ->
  entries_are h a A -> entries_are h b B ->
  snd (dim (bm_layout a)) = fst (dim (bm_layout b)) ->
  fst (dim (bm_layout a)) * snd (dim (bm_layout b)) * Npos ssize <= isize_max ->
  exists h' r, dot shape kern m h a b = Ok (h', r) /\
    fresh_matrix h h' r (fst (dim (bm_layout a)), snd (dim (bm_layout b)))
      (fun i j => sum_below (N.to_nat (snd (dim (bm_layout a)))) (fun l => smul (A i l) (B l j))).
Proof. exact @c35_exact. Qed.
Print Assumptions C35_dot_exact.

Definition ex_row : base_matrix :=
  mkBase (mkContainer VectorContainer (mkRegion 0 0 6)) (RowVector 2) Fixed1 Dynamic.
Definition ex_col : base_matrix :=
  mkBase (mkContainer VectorContainer (mkRegion 1 0 6)) (ColumnVector 3) Dynamic Fixed1.

Example C35_example :
  (base_valid ex_product_heap ex_a /\ base_valid ex_product_heap ex_b /\ base_valid ex_product_heap ex_c) /\
  exact_sums (T := Z) /\ computes ex_kernel /\
  (exists h' r, dot MatrixMatrix ex_kernel Checked ex_product_heap ex_a ex_b = Ok (h', r) /\
     get Checked h' (MBase r) 1 0 = Ok 122%Z) /\
  (exists h' r, dot RowMatrix ex_kernel Checked ex_product_heap ex_row ex_a = Ok (h', r) /\
     get Checked h' (MBase r) 0 2 = Ok (1 * 3 + 2 * 6)%Z) /\
  (exists h' r, dot MatrixColumn ex_kernel Checked ex_product_heap ex_a ex_col = Ok (h', r) /\
     get Checked h' (MBase r) 1 0 = Ok 122%Z) /\
  dot MatrixMatrix ex_kernel Checked ex_product_heap ex_a ex_a = Panic.
Proof.
  split; [exact ex_operands_valid|]. split.
  { intros n f. generalize (sum_below n f). intros x. cbn -[Z.mul Z.add]. rewrite Z.mul_1_l, Z.add_0_r. reflexivity. }
  split; [exact ex_kernel_computes|].
  split; [do 2 eexists; split; reflexivity|]. split; [do 2 eexists; split; reflexivity|].
  split; [do 2 eexists; split; reflexivity|]. reflexivity.
Qed.

(** Without overflow checks the size of the result can wrap around: the product
    of an empty 2^32 x 0 and an empty 0 x 2^32 matrix writes outside of the
    result's memory. *)
Theorem C35_release_refuted : exists (h : @heap Z) a b,
  base_valid h a /\ base_valid h b /\ product_operand (bm_layout a) = true /\
  product_operand (bm_layout b) = true /\ snd (dim (bm_layout a)) = fst (dim (bm_layout b)) /\
  forall kern, dot MatrixMatrix kern Wrapping h a b = UB.
Proof. exact c35_release. Qed.
Print Assumptions C35_release_refuted.

(** C36 for products: if the kernel's result does not depend on the strides, the
    product depends on the entries of the operands only. Views whose reported
    strides are wrong are excluded; see [C36_views_refuted]. *)
Theorem C36_products_partial : forall (T : Type) (SC : HScalar T) kern (h h' : @heap T) alpha a b beta c a' b' c',
  ignores_strides kern ->
  base_valid h a -> base_valid h b -> base_valid h c ->
  true_strides (bm_layout a) -> true_strides (bm_layout b) -> true_strides (bm_layout c) ->
  no_aliasing (bm_layout c) -> no_overlap a c -> no_overlap b c ->
  base_valid h' a' -> base_valid h' b' -> base_valid h' c' ->
  true_strides (bm_layout a') -> true_strides (bm_layout b') -> true_strides (bm_layout c') ->
  no_aliasing (bm_layout c') -> no_overlap a' c' -> no_overlap b' c' ->
  same_entries h a h' a' -> same_entries h b h' b' -> same_entries h c h' c' ->
  compatible (dim (bm_layout a)) (dim (bm_layout b)) (dim (bm_layout c)) ->
  exists k k', matmul kern h alpha a b beta c = Ok k /\ matmul kern h' alpha a' b' beta c' = Ok k' /\
    same_entries k c k' c'.
Proof. exact @c36_products. Qed.
Print Assumptions C36_products_partial.

(** B stored row by row instead of column by column. *)
Definition ex_product_heap' : @heap Z :=
  [[1; 2; 3; 4; 5; 6]; [7; 10; 8; 11; 9; 12]; [1; 1; 1; 1; 55]]%Z.
Definition ex_b' : base_matrix :=
  mkBase (mkContainer VectorContainer (mkRegion 1 0 6)) (RowMajor (3, 2)) Dynamic Dynamic.

Example C36_products_example : ignores_strides ex_kernel /\
  same_entries ex_product_heap ex_b ex_product_heap' ex_b' /\
  matmul ex_kernel ex_product_heap' 2%Z ex_a ex_b' 3%Z ex_c =
  Ok [[1; 2; 3; 4; 5; 6]; [7; 10; 8; 11; 9; 12]; [103; 139; 247; 337; 55]]%Z.
Proof.
  split; [intros sh sh' _ _ _; reflexivity|]. split; [|reflexivity].
  split; [reflexivity|]. intros [r s] [Hr Hs]. cbn in Hr, Hs.
  assert (R : r = 0 \/ r = 1 \/ r = 2) by lia. assert (S : s = 0 \/ s = 1) by lia.
  destruct R as [-> | [-> | ->]], S as [-> | ->]; reflexivity.
Qed.

(** A view and a dense copy of it can have different products. *)
Theorem C36_views_refuted : exists (h : @heap Z) kern p x y i c k k',
  base_valid h p /\ block Checked false p (0, 0) (2, 2) = Ok x /\
  base_valid h y /\ product_operand (bm_layout y) = true /\
  computes kern /\ same_entries h x h y /\
  matmul kern h 1%Z x i 0%Z c = Ok k /\ matmul kern h 1%Z y i 0%Z c = Ok k' /\
  get Checked k (MBase c) 1 0 = Ok 3%Z /\ get Checked k' (MBase c) 1 0 = Ok 4%Z.
Proof.
  exists (ex_view_heap ++ [[1; 2; 4; 5]%Z]), ex_kernel, ex_parent. eexists.
  exists (mkBase (mkContainer VectorContainer (mkRegion 3 0 4)) (RowMajor (2, 2)) Dynamic Dynamic).
  exists ex_identity, ex_dest. do 2 eexists. split.
  { apply dense_base_valid with (l := RowMajor (3, 3)); try reflexivity.
    split; [|discriminate]. eexists. split; [reflexivity|discriminate]. }
  split; [reflexivity|]. split.
  { apply dense_base_valid with (l := RowMajor (2, 2)); try reflexivity.
    split; [|discriminate]. eexists. split; [reflexivity|discriminate]. }
  split; [reflexivity|]. split; [exact ex_kernel_computes|]. split.
  { split; [reflexivity|]. intros [r s] [Hr Hs]. cbn in Hr, Hs.
    assert (R : r = 0 \/ r = 1) by lia. assert (S : s = 0 \/ s = 1) by lia.
    destruct R as [-> | ->], S as [-> | ->]; reflexivity. }
  split; [reflexivity|]. split; [reflexivity|]. split; reflexivity.
Qed.
Print Assumptions C36_views_refuted.

(** C42: complex products. *)
Theorem C42_complex : forall (R : Type) (o : real_ops R) size kern h alpha a b beta c A B C,
  @computes _ (array_scalar o size) kern ->
  base_valid h a -> base_valid h b -> base_valid h c ->
  true_strides (bm_layout a) -> true_strides (bm_layout b) -> true_strides (bm_layout c) ->
  no_aliasing (bm_layout c) -> no_overlap a c -> no_overlap b c ->
  compatible (dim (bm_layout a)) (dim (bm_layout b)) (dim (bm_layout c)) ->
  entries_are h a A -> entries_are h b B -> entries_are h c C ->
  exists h', matmul_complex kern h alpha a b beta c = Ok h' /\
    entries_are h' c (@product_entry _ (complex_scalar o size) (snd (dim (bm_layout a))) alpha A B beta C).
Proof. exact @c42. Qed.
Print Assumptions C42_complex.

Definition ex_ops : real_ops Z := {| rzero := 0; rone := 1; radd := Z.add; rsub := Z.sub; rmul := Z.mul |}%Z.
Definition ex_array_kernel : kernel (Z * Z) := fun _ _ _ alpha pairs beta old =>
  let SA := array_scalar ex_ops 8 in
  sadd (smul alpha (fold_left (fun acc p => sadd acc (smul (fst p) (snd p))) pairs szero)) (smul beta old).

(** (1 + 2i) (3 + i) (2 + 5i) + i (7 + i) as a product of 1 x 1 matrices. *)
Example C42_example : @computes _ (array_scalar ex_ops 8) ex_array_kernel /\
  let one a := mkBase (mkContainer VectorContainer (mkRegion a 0 1)) (RowMajor (1, 1)) Dynamic Dynamic in
  matmul_complex ex_array_kernel [[mkComplex 3 1]; [mkComplex 2 5]; [mkComplex 7 1]]%Z
    (mkComplex 1 2)%Z (one 0%nat) (one 1%nat) (mkComplex 0 1)%Z (one 2%nat) =
  Ok [[mkComplex 3 1]; [mkComplex 2 5]; [mkComplex (-34) 26]]%Z.
Proof. split; [intros sh i j alpha pairs beta old; reflexivity | reflexivity]. Qed.
