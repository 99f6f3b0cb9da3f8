(** * Property C53: slices of a matrix show its entries. *)

From Coq Require Import ZArith Lia.
From Verif Require Import Machine Layouts Memory Matrix MatMul Spec MatrixSpec ProductSpec SliceSpec.
From Verif Require Import ZScalar AccessProofs ConstructorProofs BlockProofs SliceProofs Properties_Products.
Local Open Scope N_scope.

(** C53, as stated: for every matrix [b] with [base_valid h b],
    [slices_show_entries m h b], and [slices_are_places m b] if it is mutable.
    True for all layouts without strides: item [k] of [get_slice(first, last)]
    is [get1d(first + k)], and the entry (i, j) is found at its number. *)
Theorem C53_slices_partial : forall (T : Type) (SC : HScalar T) m (h : @heap T) b,
  base_valid h b -> has_strides (bm_layout b) = false ->
  slices_show_entries m h b /\ (container_is_mut (bm_data b) = true -> slices_are_places (T := T) m b).
Proof. exact @c53_dense. Qed.
Print Assumptions C53_slices_partial.

(** With strides: exactly if the entries lie one after the other. *)
Theorem C53_strided_partial : forall (T : Type) (SC : HScalar T) m (h : @heap T) b,
  base_valid h b -> consecutive (bm_layout b) ->
  slices_show_entries m h b /\ (container_is_mut (bm_data b) = true -> slices_are_places (T := T) m b).
Proof. exact @c53. Qed.
Print Assumptions C53_strided_partial.

Theorem C53_strided_exact_partial : forall (T : Type) (SC : HScalar T) m (h : @heap T) b (x y : T),
  x <> y -> base_valid h b ->
  ((forall h1, same_sizes h h1 -> slices_show_entries m h1 b) <-> consecutive (bm_layout b)).
Proof. exact @c53_exact. Qed.
Print Assumptions C53_strided_exact_partial.

(** Of the blocks of a dense matrix these are the unbroken ones. *)
Theorem C53_blocks_exact_partial : forall (T : Type) (SC : HScalar T) m (h : @heap T) l d b (x y : T),
  x <> y -> block_of_dense h l d b ->
  ((forall h1, same_sizes h h1 -> slices_show_entries m h1 b) <-> unbroken l d).
Proof. exact @c53_blocks. Qed.
Print Assumptions C53_blocks_exact_partial.

(** Item 1 of the slice of a 3 x 3 upper triangular matrix is the entry (1, 1):
    the last row comes first. *)
Definition ex_triangle : base_matrix :=
  mkBase (mkContainer VectorContainer (mkRegion 0 0 6)) (UpperTriangular 3) Dynamic Dynamic.
Example C53_example :
  base_valid [[10; 20; 30; 40; 50; 60]]%Z ex_triangle /\ has_strides (bm_layout ex_triangle) = false /\
  number (UpperTriangular 3) (1, 1) = 1 /\
  (exists r, get_slice ex_triangle 1 4 = Ok r /\
     region_read [[10; 20; 30; 40; 50; 60]]%Z r 0 = Ok 20%Z /\
     get Checked [[10; 20; 30; 40; 50; 60]]%Z (MBase ex_triangle) 1 1 = Ok 20%Z) /\
  (exists x, block Checked false ex_parent (1, 0) (2, 3) = Ok x /\
     block_of_dense ex_view_heap (RowMajor (3, 3)) (2, 3) x /\ consecutive (bm_layout x)).
Proof.
  split; [|split; [reflexivity|split; [reflexivity|split]]].
  - apply dense_base_valid with (l := UpperTriangular 3); try reflexivity.
    split; [|discriminate]. eexists. split; [reflexivity|discriminate].
  - eexists. split; [reflexivity|]. split; reflexivity.
  - eexists. split; [reflexivity|].
    assert (B : forall x, block Checked false ex_parent (1, 0) (2, 3) = Ok x ->
              block_of_dense ex_view_heap (RowMajor (3, 3)) (2, 3) x).
    { intros x E. exists Checked, false, ex_parent, (1, 0). split; [exact ex_parent_valid|].
      repeat split; try discriminate; exact E. }
    assert (B1 := B _ eq_refl). split; [exact B1|].
    apply (block_consecutive ex_view_heap _ _ _ B1). right. reflexivity.
Qed.

(** The slice [0, 4) of the upper left 2 x 2 block of a 3 x 3 matrix holds
    entries 1, 2, 3, 4 of the parent; the entries of the block are 1, 2, 4, 5. A
    write through the mutable slice changes the parent outside of the block. *)
Theorem C53_block_refuted : exists (h : @heap Z) p x,
  base_valid h p /\ block Checked true p (0, 0) (2, 2) = Ok x /\
  (exists r, get_slice x 0 4 = Ok r /\ region_read h r 2 = Ok 3%Z) /\
  get1d Checked h (MBase x) 2 = Ok 4%Z /\ get Checked h (MBase x) 1 0 = Ok 4%Z /\
  exists r q h', get_slice_mut x 0 4 = Ok r /\ region_place r 2 = Ok q /\ place_write h q 0%Z = Ok h' /\
    get Checked h' (MBase p) 0 2 = Ok 0%Z /\ get Checked h' (MBase x) 1 0 = Ok 4%Z.
Proof.
  exists ex_view_heap, ex_parent. eexists. split; [exact ex_parent_valid|]. split; [reflexivity|].
  split; [eexists; split; reflexivity|]. split; [reflexivity|]. split; [reflexivity|].
  do 3 eexists. split; [reflexivity|]. split; [reflexivity|]. split; reflexivity || (split; reflexivity).
Qed.
Print Assumptions C53_block_refuted.

(** A narrower block of any size has contents for which it fails. *)
Theorem C53_narrow_refuted : forall m (h : @heap Z) l d b, block_of_dense h l d b -> ~ unbroken l d ->
  ~ forall h1, same_sizes h h1 -> slices_show_entries m h1 b.
Proof. intros m h l d b Hb Hu H. apply Hu. now apply (c53_blocks m h l d b 0%Z 1%Z ltac:(discriminate) Hb). Qed.
Print Assumptions C53_narrow_refuted.
