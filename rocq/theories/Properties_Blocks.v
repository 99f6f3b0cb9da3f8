(** * Properties C17 - C24: blocks, splits and from_pointer. *)

From Verif Require Import Machine Layouts Memory Matrix Spec MatrixSpec AccessProofs BlockProofs BlockExact ZScalar.
From Verif Require Import Properties_Access.
Local Open Scope N_scope.

(** For the examples: besides [ex_dense] (3 x 4, row-major) a 3 x 3 column-major
    matrix. *)
Definition ex_columns : base_matrix :=
  mkBase (mkContainer VectorContainer (mkRegion 1 0 9)) (ColumnMajor (3, 3)) Dynamic Dynamic.

Lemma ex_columns_valid : base_valid ex_heap ex_columns.
Proof.
  apply dense_base_valid with (l := ColumnMajor (3, 3)); try reflexivity.
  - split; [|discriminate]. exists (zlist 9 200). split; [reflexivity|discriminate].
Qed.

(** C17: a block of a dense matrix. The 1d numbering of a layout that is
    [row_ordered] ([column_ordered]) is C01's. *)
Theorem C17_block : forall (T : Type) (SC : HScalar T) m (h : @heap T) a tl d,
  base_valid h a -> dense_matrix (bm_layout a) = true ->
  nonempty d -> inside (dim (bm_layout a)) tl d ->
  exists b, block m false a tl d = Ok b /\ base_valid h b /\ dim (bm_layout b) = d /\
    row_ordered (bm_layout b) = row_ordered (bm_layout a) /\
    column_ordered (bm_layout b) = column_ordered (bm_layout a) /\
    (forall i j, in_range d (i, j) ->
       get m h (MBase b) i j = get m h (MBase a) (fst tl + i) (snd tl + j)) /\
    (forall i j, in_range d (i, j) -> row_ordered (bm_layout a) = true ->
       get1d m h (MBase b) (i * snd d + j) = get m h (MBase a) (fst tl + i) (snd tl + j)) /\
    (forall i j, in_range d (i, j) -> column_ordered (bm_layout a) = true ->
       get1d m h (MBase b) (j * fst d + i) = get m h (MBase a) (fst tl + i) (snd tl + j)).
Proof. exact @c17. Qed.
Print Assumptions C17_block.

Example C17_example :
  base_valid ex_heap ex_dense /\ nonempty (2, 3) /\ inside (dim (bm_layout ex_dense)) (1, 1) (2, 3) /\
  base_valid ex_heap ex_columns /\ inside (dim (bm_layout ex_columns)) (1, 0) (2, 3) /\
  exists b c, block Checked false ex_dense (1, 1) (2, 3) = Ok b /\
    get Checked ex_heap (MBase b) 1 2 = Ok 111%Z /\ get1d Checked ex_heap (MBase b) 3 = Ok 109%Z /\
    block Checked false ex_columns (1, 0) (2, 3) = Ok c /\
    get Checked ex_heap (MBase c) 1 2 = Ok 208%Z /\ get1d Checked ex_heap (MBase c) 3 = Ok 205%Z.
Proof.
  split; [exact ex_dense_valid|]. split; [split; discriminate|]. split; [split; discriminate|].
  split; [exact ex_columns_valid|]. split; [split; discriminate|].
  do 2 eexists. split; [reflexivity|]. split; [reflexivity|]. split; [reflexivity|].
  split; [reflexivity|]. vm_compute. auto.
Qed.

(** C18: writing through a mutable block. *)
Theorem C18_block_mut : forall (T : Type) m (h : @heap T) a tl d i j v,
  base_valid h a -> dense_matrix (bm_layout a) = true ->
  nonempty d -> inside (dim (bm_layout a)) tl d -> in_range d (i, j) ->
  exists b h', block m true a tl d = Ok b /\ set m h (MBase b) i j v = Ok h' /\
    base_entry h' a (fst tl + i, snd tl + j) = Some v /\
    (forall q, stored (bm_layout a) q -> q <> (fst tl + i, snd tl + j) ->
       base_entry h' a q = base_entry h a q) /\
    changes_only (fun q => q = entry_cell a (fst tl + i, snd tl + j)) h h'.
Proof. exact @c18. Qed.
Print Assumptions C18_block_mut.

Example C18_example :
  base_valid ex_heap ex_columns /\ inside (dim (bm_layout ex_columns)) (1, 1) (2, 2) /\
  exists b h', block Checked true ex_columns (1, 1) (2, 2) = Ok b /\
    set Checked ex_heap (MBase b) 0 1 (-5)%Z = Ok h' /\
    get Checked h' (MBase ex_columns) 1 2 = Ok (-5)%Z /\ get Checked h' (MBase ex_columns) 2 1 = Ok 205%Z.
Proof.
  split; [exact ex_columns_valid|]. split; [split; discriminate|].
  do 2 eexists. split; [reflexivity|]. split; [reflexivity|]. vm_compute. auto.
Qed.

(** C19: the claim "a block of a block is the composed block" is false. A block
    of a block is the composed block exactly if it has a single row or the
    intermediate block is as wide as the parent (row-major; rows and columns
    swapped for column-major), because [stride] of a view returns the strides of
    a dense matrix of the view's dimension. In every case the nested block is a
    sound matrix ([base_valid]): no foreign memory is reached. *)
Theorem C19_nested_block_partial : forall (T : Type) m (h : @heap T) mut1 mut2 mut3 a o1 d1 o2 d2,
  base_valid h a -> dense_matrix (bm_layout a) = true ->
  nonempty d1 -> inside (dim (bm_layout a)) o1 d1 -> nonempty d2 -> inside d1 o2 d2 ->
  exists b1 b2 b3,
    block m mut1 a o1 d1 = Ok b1 /\ block m mut2 b1 o2 d2 = Ok b2 /\
    block m mut3 a (shift o1 o2) d2 = Ok b3 /\
    base_valid h b2 /\ dim (bm_layout b2) = d2 /\ dim (bm_layout b3) = d2 /\
    ((forall p, in_range d2 p -> entry_cell b2 p = entry_cell b3 p) <->
     (row_ordered (bm_layout a) = true /\ (fst d2 = 1 \/ snd d1 = snd (dim (bm_layout a))) \/
      column_ordered (bm_layout a) = true /\ (snd d2 = 1 \/ fst d1 = fst (dim (bm_layout a))))).
Proof. exact @c19. Qed.
Print Assumptions C19_nested_block_partial.

(** The counterexample: b = a.block((0, 1), (3, 3)), b.block((1, 0), (2, 2)). *)
Theorem C19_nested_block_refuted : exists (h : @heap Z) a b1 b2 b3,
  base_valid h a /\ dense_matrix (bm_layout a) = true /\
  block Checked false a (0, 1) (3, 3) = Ok b1 /\ block Checked false b1 (1, 0) (2, 2) = Ok b2 /\
  block Checked false a (1, 1) (2, 2) = Ok b3 /\
  get Checked h (MBase b1) 2 1 = Ok 110%Z /\ get Checked h (MBase b3) 1 1 = Ok 110%Z /\
  get Checked h (MBase b2) 1 1 = Ok 109%Z.
Proof.
  exists ex_heap, ex_dense. do 3 eexists. split; [exact ex_dense_valid|]. split; [reflexivity|].
  split; [reflexivity|]. split; [reflexivity|]. split; [reflexivity|]. vm_compute. auto.
Qed.
Print Assumptions C19_nested_block_refuted.

Example C19_example : inside (3, 4) (1, 0) (2, 4) /\ inside (2, 4) (0, 1) (2, 2) /\
  exists b1 b2, block Checked false ex_dense (1, 0) (2, 4) = Ok b1 /\
    block Checked false b1 (0, 1) (2, 2) = Ok b2 /\ get Checked ex_heap (MBase b2) 1 1 = Ok 110%Z.
Proof.
  split; [split; discriminate|]. split; [split; discriminate|]. do 2 eexists.
  split; [reflexivity|]. split; [reflexivity|]. reflexivity.
Qed.

(** C20, build with overflow checks. A view is returned exactly for the
    non-empty blocks inside the parent, and it lies in the parent's memory; all
    other requests panic, except for an empty block that starts beyond the end
    of the parent's container (see the next theorem). Missing: that case, and
    builds without overflow checks. *)
Theorem C20_checked_partial : forall (T : Type) (h : @heap T) mut b tl d,
  base_valid h b -> dense_matrix (bm_layout b) = true ->
  (returns (block Checked mut b tl d) <-> nonempty d /\ inside (dim (bm_layout b)) tl d) /\
  (forall v, block Checked mut b tl d = Ok v ->
     base_valid h v /\ within (c_region (bm_data v)) (c_region (bm_data b))) /\
  (~ (nonempty d /\ inside (dim (bm_layout b)) tl d) ->
     nonempty d \/ cell (bm_layout b) tl <= r_len (c_region (bm_data b)) ->
     panics (block Checked mut b tl d)).
Proof. exact @c20_checked_full. Qed.
Print Assumptions C20_checked_partial.

Example C20_example :
  block Checked false ex_dense (2, 3) (2, 1) = Panic /\
  block Checked false ex_dense (18446744073709551615, 0) (1, 1) = Panic /\
  block Checked false ex_dense (1, 1) (0, 2) = Panic.
Proof. vm_compute. auto. Qed.

(** An empty block at the lower right corner: the pointer is moved past the end
    of the container (undefined behaviour), before the panic is reached. *)
Theorem C20_empty_block_refuted : exists (h : @heap Z) a,
  base_valid h a /\ bm_layout a = RowMajor (3, 4) /\ block Checked false a (3, 4) (0, 0) = UB.
Proof. exists ex_heap, ex_dense. split; [exact ex_dense_valid|]. split; reflexivity. Qed.
Print Assumptions C20_empty_block_refuted.

(** The outcome of every request, with overflow checks. [dim] consists of usizes. *)
Theorem C20_checked_exact_partial : forall (T : Type) (h : @heap T) mut b tl d,
  base_valid h b -> dense_matrix (bm_layout b) = true ->
  fst (dim (bm_layout b)) < usize_mod -> snd (dim (bm_layout b)) < usize_mod ->
  (returns (block Checked mut b tl d) <-> nonempty d /\ inside (dim (bm_layout b)) tl d) /\
  (block Checked mut b tl d = UB <->
     ~ nonempty d /\ inside (dim (bm_layout b)) tl d /\ r_len (c_region (bm_data b)) < cell (bm_layout b) tl) /\
  (panics (block Checked mut b tl d) <->
     ~ inside (dim (bm_layout b)) tl d \/
     (~ nonempty d /\ cell (bm_layout b) tl <= r_len (c_region (bm_data b)))).
Proof. exact @c20_exact. Qed.
Print Assumptions C20_checked_exact_partial.

(** The outcome of every request for an empty block inside of the parent, without
    overflow checks: undefined behaviour if it starts beyond the end of the
    container, or if it has no lines and is narrower than the parent (then the slice
    is made with a length of almost 2^64); otherwise a view. *)
Theorem C20_release_empty_partial : forall (T : Type) (h : @heap T) mut b tl d,
  base_valid h b -> dense_matrix (bm_layout b) = true ->
  nonempty (dim (bm_layout b)) -> inside (dim (bm_layout b)) tl d -> ~ nonempty d ->
  let D := dim (bm_layout b) in
  let lines := if column_ordered (bm_layout b) then snd d else fst d in
  let width := if column_ordered (bm_layout b) then fst d else snd d in
  let full := if column_ordered (bm_layout b) then fst D else snd D in
  (block Wrapping mut b tl d = UB <->
     r_len (c_region (bm_data b)) < cell (bm_layout b) tl \/ lines = 0 /\ width < full) /\
  (returns (block Wrapping mut b tl d) <->
     cell (bm_layout b) tl <= r_len (c_region (bm_data b)) /\ (1 <= lines \/ width = full)).
Proof. exact @c20_release_empty. Qed.
Print Assumptions C20_release_empty_partial.

Example C20_empty_example :
  (base_valid ex_heap ex_dense /\ dense_matrix (bm_layout ex_dense) = true /\ nonempty (dim (bm_layout ex_dense))) /\
  (inside (3, 4) (1, 0) (0, 4) /\ ~ nonempty (0, 4) /\ returns (block Wrapping true ex_dense (1, 0) (0, 4))) /\
  (inside (3, 4) (1, 1) (0, 3) /\ ~ nonempty (0, 3) /\ block Wrapping true ex_dense (1, 1) (0, 3) = UB) /\
  (inside (3, 4) (1, 4) (2, 0) /\ ~ nonempty (2, 0) /\ returns (block Wrapping true ex_dense (1, 4) (2, 0))) /\
  (inside (3, 4) (3, 1) (0, 0) /\ ~ nonempty (0, 0) /\ block Wrapping true ex_dense (3, 1) (0, 0) = UB).
Proof.
  split; [split; [exact ex_dense_valid|]; split; [reflexivity|split; discriminate]|].
  repeat split; first [discriminate | reflexivity | eexists; reflexivity | intros [H0 H1]; vm_compute in H0, H1; congruence].
Qed.

(** C20, build without overflow checks: for non-empty blocks whose corner can be
    computed without overflow the claim holds. *)
Theorem C20_release_partial : forall (T : Type) (h : @heap T) mut b tl d,
  base_valid h b -> dense_matrix (bm_layout b) = true ->
  nonempty d -> fst tl + fst d < usize_mod -> snd tl + snd d < usize_mod ->
  (inside (dim (bm_layout b)) tl d -> returns (block Wrapping mut b tl d)) /\
  (~ inside (dim (bm_layout b)) tl d -> panics (block Wrapping mut b tl d)).
Proof. exact @c20_release. Qed.
Print Assumptions C20_release_partial.

(** Otherwise it fails: empty blocks are accepted, or undefined behaviour; and a
    block far outside the parent is accepted because its corner wraps around,
    after which reading its entries leaves the memory of the parent. *)
Theorem C20_release_refuted : exists (h : @heap Z) a,
  base_valid h a /\ bm_layout a = RowMajor (3, 4) /\
  returns (block Wrapping false a (0, 0) (1, 0)) /\
  block Wrapping false a (0, 0) (0, 2) = UB /\
  ~ inside (3, 4) (2 ^ 62, 0) (3 * 2 ^ 62, 4) /\
  exists b, block Wrapping true a (2 ^ 62, 0) (3 * 2 ^ 62, 4) = Ok b /\
    get Wrapping h (MBase b) 5 0 = UB /\ set Wrapping h (MBase b) 5 0 0%Z = UB.
Proof.
  exists ex_heap, ex_dense. split; [exact ex_dense_valid|]. split; [reflexivity|].
  split; [eexists; reflexivity|]. split; [reflexivity|].
  split; [intros [H _]; vm_compute in H; now apply H|].
  eexists. split; [reflexivity|]. vm_compute. auto.
Qed.
Print Assumptions C20_release_refuted.

(** C21: the four blocks of a split. *)
Theorem C21_split : forall (T : Type) (SC : HScalar T) m (h : @heap T) b D s,
  base_valid h b -> bm_layout b = RowMajor D -> interior D s ->
  exists four, split_in_four_mut m b s = Ok four /\
    (forall k, base_valid h (pick four k) /\ dim (bm_layout (pick four k)) = quarter_dim D s k /\
       row_ordered (bm_layout (pick four k)) = true /\
       container_is_mut (bm_data (pick four k)) = true) /\
    (forall p, in_range D p ->
       exists k q, in_range (quarter_dim D s k) q /\ shift (quarter_origin s k) q = p /\
         entry_cell (pick four k) q = entry_cell b p /\
         get m h (MBase (pick four k)) (fst q) (snd q) = get m h (MBase b) (fst p) (snd p) /\
         forall k' q', in_range (quarter_dim D s k') q' ->
           entry_cell (pick four k') q' = entry_cell b p -> k' = k /\ q' = q).
Proof. exact @c21. Qed.
Print Assumptions C21_split.

Example C21_example : base_valid ex_heap ex_dense /\ interior (3, 4) (2, 1) /\
  exists four, split_in_four_mut Checked ex_dense (2, 1) = Ok four /\
    get Checked ex_heap (MBase (pick four Q1)) 1 2 = Ok 107%Z /\
    get Checked ex_heap (MBase (pick four Q3)) 0 1 = Ok 110%Z.
Proof.
  split; [exact ex_dense_valid|]. split; [repeat split; discriminate|].
  eexists. split; [reflexivity|]. vm_compute. auto.
Qed.

(** C22: any history of write statements to the four blocks. Each block, and
    the parent at the place of the block, ends with what was last written to the
    block; nothing else changes. *)
Theorem C22_independent_writes : forall (T : Type) (SC : HScalar T) m b D s
    (ws : list (quarter * write T)) (h : @heap T),
  base_valid h b -> bm_layout b = RowMajor D -> interior D s ->
  exists four h', split_in_four_mut m b s = Ok four /\ attempt_quarters m four h ws = Ok h' /\
    (forall k q, in_range (quarter_dim D s k) q ->
       base_entry h' b (shift (quarter_origin s k) q) = base_entry h' (pick four k) q /\
       base_entry h' (pick four k) q =
       match last_write (bm_layout (pick four k)) (writes_of k ws) q with
       | Some v => Some v
       | None => base_entry h (pick four k) q
       end) /\
    changes_only (fun c => exists k q, in_range (quarter_dim D s k) q /\
       last_write (bm_layout (pick four k)) (writes_of k ws) q <> None /\
       c = entry_cell (pick four k) q) h h'.
Proof. exact @c22. Qed.
Print Assumptions C22_independent_writes.

Example C22_example : base_valid ex_heap ex_dense /\ interior (3, 4) (2, 1) /\
  exists four h', split_in_four_mut Checked ex_dense (2, 1) = Ok four /\
    attempt_quarters Checked four ex_heap
      [(Q1, Write2 1 2 7%Z); (Q3, Write1 1 8%Z); (Q0, Write2 5 5 9%Z); (Q1, Write1 5 6%Z)] = Ok h' /\
    get Checked h' (MBase ex_dense) 1 3 = Ok 6%Z /\ get Checked h' (MBase ex_dense) 2 2 = Ok 8%Z /\
    get Checked h' (MBase ex_dense) 0 0 = Ok 100%Z.
Proof.
  split; [exact ex_dense_valid|]. split; [repeat split; discriminate|].
  do 2 eexists. split; [reflexivity|]. split; [reflexivity|]. vm_compute. auto.
Qed.

(** C23: false. The slices the four blocks hold (and hand out through
    [get_slice_mut]) are pairwise disjoint only if each block has one row. *)
Theorem C23_disjoint_partial : forall (T : Type) m (h : @heap T) b D s,
  base_valid h b -> bm_layout b = RowMajor D -> interior D s ->
  exists four, split_in_four_mut m b s = Ok four /\
    ((forall k k', k <> k' ->
        disjoint (c_region (bm_data (pick four k))) (c_region (bm_data (pick four k'))))
     <-> fst s = 1 /\ fst D = 2).
Proof. exact @c23. Qed.
Print Assumptions C23_disjoint_partial.

Theorem C23_overlap_refuted : forall (T : Type) m (h : @heap T) b D s,
  base_valid h b -> bm_layout b = RowMajor D -> interior D s -> 2 <= fst s ->
  exists four, split_in_four_mut m b s = Ok four /\
    ~ disjoint (c_region (bm_data (pick four Q0))) (c_region (bm_data (pick four Q1))).
Proof. exact @c23_overlap. Qed.
Print Assumptions C23_overlap_refuted.

(** Both slices contain, and can write, the cell of the parent's entry (0, 2). *)
Theorem C23_witness_refuted : exists (h : @heap Z) b four r0 r1 p,
  base_valid h b /\ split_in_four_mut Checked b (2, 2) = Ok four /\
  get_slice_mut (pick four Q0) 0 6 = Ok r0 /\ get_slice_mut (pick four Q1) 0 6 = Ok r1 /\
  region_place r0 2 = Ok p /\ region_place r1 0 = Ok p.
Proof.
  exists ex_heap, ex_dense. do 4 eexists. split; [exact ex_dense_valid|].
  split; [reflexivity|]. split; [reflexivity|]. split; [reflexivity|]. split; reflexivity.
Qed.
Print Assumptions C23_witness_refuted.

Example C23_example : interior (2, 4) (1, 3) /\ interior (3, 4) (2, 1).
Proof. repeat split; discriminate. Qed.

(** C24: matrices from raw pointers. [last] is the offset of the last entry. *)
Theorem C24_from_pointer_partial : forall (T : Type) (SC : HScalar T) m (h : @heap T) mut o p d s,
  slice_ok h (p_region p) -> nonempty d ->
  let last := (fst d - 1) * fst s + (snd d - 1) * snd s in
  p_off p + last < r_len (p_region p) ->
  (fst d * snd d <= last + 1 ->
     exists b, from_pointer_strided m mut o p d s = Ok b /\ base_valid h b /\
       dim (bm_layout b) = d /\
       row_ordered (bm_layout b) = (match o with ByRow => true | _ => false end) /\
       column_ordered (bm_layout b) = (match o with ByColumn => true | _ => false end) /\
       container_is_mut (bm_data b) = mut /\
       c_region (bm_data b) =
         mkRegion (r_alloc (p_region p)) (r_lo (p_region p) + p_off p) (last + 1) /\
       (forall i j, entry_cell b (i, j) =
          (r_alloc (p_region p), r_lo (p_region p) + p_off p + (i * fst s + j * snd s))) /\
       no_access_ub m h b) /\
  (last + 1 < fst d * snd d -> panics (from_pointer_strided Checked mut o p d s)).
Proof. exact @c24. Qed.
Print Assumptions C24_from_pointer_partial.

(** The variant without strides makes a dense matrix. *)
Theorem C24_from_pointer_dense : forall (T : Type) m (h : @heap T) mut o p d,
  slice_ok h (p_region p) -> p_off p + fst d * snd d <= r_len (p_region p) ->
  exists b, from_pointer m mut o p d = Ok b /\ base_valid h b /\
    bm_layout b = (match o with ByRow => RowMajor d | ByColumn => ColumnMajor d end) /\
    c_region (bm_data b) =
      mkRegion (r_alloc (p_region p)) (r_lo (p_region p) + p_off p) (fst d * snd d) /\
    container_is_mut (bm_data b) = mut.
Proof. exact @from_pointer_dense_ok. Qed.
Print Assumptions C24_from_pointer_dense.

Example C24_example :
  let p := mkPointer (mkRegion 0 0 14) 2 in
  slice_ok ex_heap (p_region p) /\ nonempty (3, 2) /\
  exists b, from_pointer_strided Checked false ByColumn p (3, 2) (3, 5) = Ok b /\
    get Checked ex_heap (MBase b) 2 1 = Ok 113%Z /\ get1d Checked ex_heap (MBase b) 4 = Ok 110%Z /\
    from_pointer_strided Checked false ByRow p (3, 2) (1, 1) = Panic.
Proof.
  split; [|split; [split; discriminate|eexists; split; [reflexivity|vm_compute; auto]]].
  split; [|discriminate]. exists (zlist 14 100). split; [reflexivity|discriminate].
Qed.

(** Without overflow checks the last part of C24 fails: the number of entries
    wraps around. *)
Theorem C24_release_refuted : exists (h : @heap Z) p d s,
  slice_ok h (p_region p) /\ nonempty d /\
  p_off p + ((fst d - 1) * fst s + (snd d - 1) * snd s) < r_len (p_region p) /\
  (fst d - 1) * fst s + (snd d - 1) * snd s + 1 < fst d * snd d /\
  returns (from_pointer_strided Wrapping false ByRow p d s).
Proof.
  exists ex_heap, (mkPointer (mkRegion 0 0 14) 0), (2 ^ 32, 2 ^ 32), (0, 0).
  split; [|split; [split; discriminate|split; [reflexivity|split; [reflexivity|eexists; reflexivity]]]].
  split; [|discriminate]. exists (zlist 14 100). split; [reflexivity|discriminate].
Qed.
Print Assumptions C24_release_refuted.
