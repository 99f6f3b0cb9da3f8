(** * Properties C05, C09 - C12, C16: access to entries and slices. *)

From Verif Require Import Machine Layouts Memory Matrix Spec MatrixSpec AccessProofs AccessExact ZScalar.
Local Open Scope N_scope.

(** The matrices used in the examples: a heap with two allocations, a 3 x 4
    row-major matrix on a longer vector, a 2 x 3 view with strides (5, 2) and
    an upper triangular 3 x 3 matrix. *)
Definition ex_heap : @heap Z := [zlist 14 100; zlist 9 200].
Definition ex_dense : base_matrix :=
  mkBase (mkContainer VectorContainer (mkRegion 0 0 14)) (RowMajor (3, 4)) Dynamic Dynamic.
Definition ex_strided : base_matrix :=
  mkBase (mkContainer SliceContainerMut (mkRegion 0 2 10))
         (ArbitraryStrideRowMajor (2, 3) (5, 2)) Dynamic Dynamic.
Definition ex_triangular : base_matrix :=
  mkBase (mkContainer VectorContainer (mkRegion 1 0 9)) (UpperTriangular 3) Dynamic Dynamic.

Lemma ex_dense_valid : base_valid ex_heap ex_dense.
Proof.
  apply dense_base_valid with (l := RowMajor (3, 4)); try reflexivity.
  - split; [|discriminate]. exists (zlist 14 100). split; [reflexivity|discriminate].
  - discriminate.
Qed.

Lemma ex_strided_valid : base_valid ex_heap ex_strided.
Proof.
  apply strided_base_valid with (l := ArbitraryStrideRowMajor (2, 3) (5, 2)); try reflexivity.
  split; [|discriminate]. exists (zlist 14 100). split; [reflexivity|discriminate].
Qed.

Lemma ex_triangular_valid : base_valid ex_heap ex_triangular.
Proof.
  apply dense_base_valid with (l := UpperTriangular 3); try reflexivity.
  - split; [|discriminate]. exists (zlist 9 200). split; [reflexivity|discriminate].
  - discriminate.
Qed.

Definition ex_sum : matrix Z :=
  MAddition (MScalarMult (MBase (mkBase (mkContainer VectorContainer (mkRegion 1 0 9))
                                        (RowMajor (2, 3)) Dynamic Dynamic)) 10%Z)
            (MRef (MBase ex_strided)) (RowMajor (2, 3)).

Lemma ex_sum_valid : valid ex_heap ex_sum.
Proof.
  cbn [valid ex_sum]. split; [|split; [exact ex_strided_valid | repeat split]].
  apply dense_base_valid with (l := RowMajor (2, 3)); try reflexivity.
  - split; [|discriminate]. exists (zlist 9 200). split; [reflexivity|discriminate].
  - discriminate.
Qed.

(** C05: access by position and by the 1d index of the position read, and
    write, the same entry - for sound matrices and expressions of any layout. *)
Theorem C05_get_get1d : forall (T : Type) (SC : HScalar T) m (h : @heap T) x r c i,
  valid h x -> stored (mat_layout x) (r, c) -> convert_2d_1d m (mat_layout x) r c = Ok i ->
  get1d m h x i = get m h x r c /\
  (forall b v, writes_to x = Some b -> set1d m h x i v = set m h x r c v).
Proof.
  exact (fun T SC m h x r c i Hv Hp E =>
    conj (c05_get m h x r c i Hv Hp E) (fun b v Hw => c05_set m h x b r c i v Hv Hw Hp E)).
Qed.
Print Assumptions C05_get_get1d.

Example C05_example : valid ex_heap ex_sum /\ convert_2d_1d Checked (mat_layout ex_sum) 1 2 = Ok 5 /\
  get Checked ex_heap ex_sum 1 2 = Ok 2161%Z /\ get1d Checked ex_heap ex_sum 5 = Ok 2161%Z.
Proof. split; [exact ex_sum_valid|]. vm_compute. auto. Qed.

(** C09: reading. *)
Theorem C09_checked_read : forall (T : Type) (SC : HScalar T) m (h : @heap T) x,
  valid h x ->
  (forall r c,
     (stored (mat_layout x) (r, c) -> returns_entry (get m h x r c) (entry h x (r, c))) /\
     (panics (get m h x r c) <-> ~ stored (mat_layout x) (r, c))) /\
  (forall i,
     (i < entry_count (mat_layout x) ->
        exists p, stored (mat_layout x) p /\ number (mat_layout x) p = i /\
                  returns_entry (get1d m h x i) (entry h x p)) /\
     (panics (get1d m h x i) <-> entry_count (mat_layout x) <= i)).
Proof.
  exact (fun T SC m h x Hv =>
    conj (fun r c => c09_get m h x r c Hv) (fun i => c09_get1d m h x i Hv)).
Qed.
Print Assumptions C09_checked_read.

(** C09: writing. *)
Theorem C09_checked_write : forall (T : Type) (SC : HScalar T) m (h : @heap T) x b,
  valid h x -> writes_to x = Some b ->
  (forall r c,
     (stored (mat_layout x) (r, c) ->
        get_mut m x r c = Ok (mkPlace (fst (entry_cell b (r, c))) (snd (entry_cell b (r, c))))) /\
     (panics (get_mut m x r c) <-> ~ stored (mat_layout x) (r, c))) /\
  (forall i,
     (i < entry_count (mat_layout x) ->
        exists p, stored (mat_layout x) p /\ number (mat_layout x) p = i /\
                  get1d_mut m x i = Ok (mkPlace (fst (entry_cell b p)) (snd (entry_cell b p)))) /\
     (panics (get1d_mut m x i) <-> entry_count (mat_layout x) <= i)).
Proof.
  exact (fun T SC m h x b Hv Hw =>
    conj (fun r c => c09_get_mut m h x b r c Hv Hw) (fun i => c09_get1d_mut m h x b i Hv Hw)).
Qed.
Print Assumptions C09_checked_write.

Example C09_example : base_valid ex_heap ex_triangular /\
  get Checked ex_heap (MBase ex_triangular) 0 2 = Ok 205%Z /\
  get Checked ex_heap (MBase ex_triangular) 2 1 = Panic /\
  get Checked ex_heap (MBase ex_triangular) 0 3 = Panic /\
  get1d Checked ex_heap (MBase ex_triangular) 5 = Ok 205%Z /\
  get1d Checked ex_heap (MBase ex_triangular) 6 = Panic /\
  writes_to (@MBase Z ex_triangular) = Some ex_triangular.
Proof. split; [exact ex_triangular_valid|]. vm_compute. auto 10. Qed.

(** C10: a dense, vector or triangular matrix accepted by [from_data] (build
    with overflow checks) is only accessed inside of its container. Missing from
    the full claim: layouts with user-chosen strides (for which it fails, see
    below) and builds without overflow checks (see C39). *)
Theorem C10_no_foreign_access_partial : forall (T : Type) (SC : HScalar T) (h : @heap T) rs cs c l b,
  slice_ok h (c_region c) -> has_strides l = false ->
  from_data Checked rs cs c l = Ok b -> base_valid h b /\ forall m, no_access_ub m h b.
Proof.
  exact (fun T SC h rs cs c l b Hs Hl E =>
    conj (from_data_valid h rs cs c l b Hs Hl E) (c10 h rs cs c l b Hs Hl E)).
Qed.
Print Assumptions C10_no_foreign_access_partial.

Example C10_example :
  slice_ok ex_heap (mkRegion 1 0 9) /\
  returns (from_data Checked Dynamic Dynamic (mkContainer VectorContainer (mkRegion 1 0 9)) (ColumnMajor (4, 2))) /\
  from_data Checked Dynamic Dynamic (mkContainer VectorContainer (mkRegion 1 0 9)) (ColumnMajor (5, 2)) = Panic.
Proof.
  split; [|split; [eexists|]; reflexivity].
  split; [|discriminate]. exists (zlist 9 200). split; [reflexivity|discriminate].
Qed.

(** With user-chosen strides, the last entry lying in the container is what is
    needed - and what [from_data] does not check. *)
Theorem C10_strided_sufficient_partial : forall (T : Type) (SC : HScalar T) (h : @heap T) rs cs c l b,
  slice_ok h (c_region c) -> has_strides l = true ->
  cell l (fst (dim l) - 1, snd (dim l) - 1) < r_len (c_region c) ->
  from_data Checked rs cs c l = Ok b -> forall m, no_access_ub m h b.
Proof. exact @c10_strided. Qed.
Print Assumptions C10_strided_sufficient_partial.

Theorem C10_strided_refuted : forall (T : Type) (SC : HScalar T) (h : @heap T) rs cs c l b m,
  slice_ok h (c_region c) -> has_strides l = true ->
  from_data m rs cs c l = Ok b ->
  1 <= fst (dim l) -> 1 <= snd (dim l) ->
  r_len (c_region c) <= cell l (fst (dim l) - 1, snd (dim l) - 1) ->
  cell l (fst (dim l) - 1, snd (dim l) - 1) < usize_mod ->
  get m h (MBase b) (fst (dim l) - 1) (snd (dim l) - 1) = UB.
Proof. exact @c10_strided_needed. Qed.
Print Assumptions C10_strided_refuted.

(** The exact outcome of every read and write of a matrix with user-chosen
    strides, in both builds: it panics outside of the dimensions (and, with
    overflow checks, when the offset is no [usize]), accesses the item that the
    offset, modulo 2^64, names if the container has such an item, and is
    undefined behaviour otherwise. *)
Theorem C10_strided_exact_partial : forall (T : Type) (SC : HScalar T) m (h : @heap T) rs cs c l b r col v,
  slice_ok h (c_region c) -> has_strides l = true -> from_data m rs cs c l = Ok b ->
  (~ in_range (dim l) (r, col) ->
     get m h (MBase b) r col = Panic /\ set m h (MBase b) r col v = Panic) /\
  (in_range (dim l) (r, col) ->
     match reached m (cell l (r, col)) with
     | None => get m h (MBase b) r col = Panic /\
               (container_is_mut c = true -> set m h (MBase b) r col v = Panic)
     | Some a =>
         let i := r_lo (c_region c) + a in
         if a <? r_len (c_region c) then
           (exists w, get m h (MBase b) r col = Ok w /\ hget h (r_alloc (c_region c)) i = Some w) /\
           (container_is_mut c = true ->
              set m h (MBase b) r col v = Ok (hset h (r_alloc (c_region c)) i v))
         else get m h (MBase b) r col = UB /\ set m h (MBase b) r col v = UB
     end).
Proof. exact @c10_exact. Qed.
Print Assumptions C10_strided_exact_partial.

(** The matrices with user-chosen strides that are safe to read: in general, and
    when the offset of the last entry is a [usize]. *)
Theorem C10_strided_criterion_partial : forall (T : Type) (SC : HScalar T) m (h : @heap T) rs cs c l b,
  slice_ok h (c_region c) -> has_strides l = true -> from_data m rs cs c l = Ok b ->
  ((forall r col, get m h (MBase b) r col <> UB) <->
   forall p, in_range (dim l) p -> forall a, reached m (cell l p) = Some a -> a < r_len (c_region c)).
Proof. exact @c10_safe_iff. Qed.
Print Assumptions C10_strided_criterion_partial.

Theorem C10_last_entry_partial : forall (T : Type) (SC : HScalar T) m (h : @heap T) rs cs c l b,
  slice_ok h (c_region c) -> has_strides l = true -> from_data m rs cs c l = Ok b ->
  1 <= fst (dim l) -> 1 <= snd (dim l) ->
  cell l (fst (dim l) - 1, snd (dim l) - 1) < usize_mod ->
  ((forall r col, get m h (MBase b) r col <> UB) <->
   cell l (fst (dim l) - 1, snd (dim l) - 1) < r_len (c_region c)).
Proof. exact @c10_last_entry. Qed.
Print Assumptions C10_last_entry_partial.

(** A stride that makes the offset of row 2 wrap to 0: the release build reads
    (and writes) entry (0,0) instead, the debug build panics. *)
Example C10_wrapped_example :
  let c := mkContainer VectorContainer (mkRegion 1 0 9) in
  let b := mkBase c (ArbitraryStrideRowMajor (3, 2) (9223372036854775808, 1)) Dynamic Dynamic in
  slice_ok ex_heap (c_region c) /\ from_data Wrapping Dynamic Dynamic c (bm_layout b) = Ok b /\
  get Wrapping ex_heap (MBase b) 2 0 = Ok 200%Z /\ get Wrapping ex_heap (MBase b) 2 1 = Ok 201%Z /\
  get Wrapping ex_heap (MBase b) 1 0 = UB /\
  get Checked ex_heap (MBase b) 2 0 = Panic /\ get Checked ex_heap (MBase b) 1 0 = UB.
Proof.
  cbn zeta. split; [|vm_compute; auto 10].
  split; [|discriminate]. exists (zlist 9 200). split; [reflexivity|discriminate].
Qed.

Theorem C10_witness_refuted : exists (h : @heap Z) c l b,
  slice_ok h (c_region c) /\ from_data Checked Dynamic Dynamic c l = Ok b /\
  get Checked h (MBase b) 1 1 = UB /\ get1d Checked h (MBase b) 3 = UB /\
  set Checked h (MBase b) 1 1 0%Z = UB.
Proof.
  exists ex_heap, (mkContainer VectorContainer (mkRegion 1 0 9)),
    (ArbitraryStrideRowMajor (2, 2) (100, 1)).
  eexists. split; [|split; [reflexivity|vm_compute; auto]].
  split; [|discriminate]. exists (zlist 9 200). split; [reflexivity|discriminate].
Qed.
Print Assumptions C10_witness_refuted.

Example C10_strided_example : base_valid ex_heap ex_strided /\
  cell (bm_layout ex_strided) (1, 2) = 9 /\
  get Checked ex_heap (MBase ex_strided) 1 2 = Ok 111%Z.
Proof. split; [exact ex_strided_valid|]. vm_compute. auto. Qed.

(** C11: histories of writes. [attempt_all] performs the write statements one
    after the other (a panicking one has no effect). Afterwards each entry is
    what was last written to it, or its old value. *)
Theorem C11_last_write : forall (T : Type) (SC : HScalar T) m x b (ws : list (write T)) (h : @heap T),
  valid h x -> writes_to x = Some b -> no_aliasing (mat_layout x) ->
  exists h', attempt_all m x h ws = Ok h' /\
    (forall p, stored (mat_layout x) p ->
       entry h' x p =
       match last_write (mat_layout x) ws p with Some v => Some v | None => entry h x p end) /\
    changes_only (fun q => exists p, stored (mat_layout x) p /\
                             last_write (mat_layout x) ws p <> None /\ q = entry_cell b p) h h'.
Proof. exact @c11. Qed.
Print Assumptions C11_last_write.

Example C11_example : valid ex_heap (MRefMut (MBase ex_strided)) /\
  no_aliasing (bm_layout ex_strided) /\ writes_to (@MRefMut Z (MBase ex_strided)) = Some ex_strided /\
  let ws := [Write2 1 1 5%Z; Write1 0 6%Z; Write2 7 0 8%Z; Write1 4 9%Z; Write2 0 2 7%Z] in
  last_write (bm_layout ex_strided) ws (1, 1) = Some 9%Z /\
  last_write (bm_layout ex_strided) ws (0, 0) = Some 6%Z /\
  last_write (bm_layout ex_strided) ws (1, 0) = None.
Proof.
  split; [exact ex_strided_valid|]. split; [|vm_compute; auto].
  intros _. left. vm_compute. split; [discriminate | reflexivity].
Qed.

(** C12: a write changes one cell of the heap, the one of the entry. *)
Theorem C12_one_cell : forall (T : Type) (SC : HScalar T) m (h : @heap T) x b,
  valid h x -> writes_to x = Some b ->
  (forall r c v h', set m h x r c v = Ok h' ->
     one_cell_written h h' (fst (entry_cell b (r, c))) (snd (entry_cell b (r, c))) v) /\
  (forall i v h', set1d m h x i v = Ok h' ->
     exists p, stored (mat_layout x) p /\ number (mat_layout x) p = i /\
       one_cell_written h h' (fst (entry_cell b p)) (snd (entry_cell b p)) v).
Proof.
  exact (fun T SC m h x b Hv Hw =>
    conj (fun r c v h' E => c12 m h x b r c v h' Hv Hw E)
         (fun i v h' E => c12_1d m h x b i v h' Hv Hw E)).
Qed.
Print Assumptions C12_one_cell.

Example C12_example : base_valid ex_heap ex_dense /\
  exists h', set Checked ex_heap (MBase ex_dense) 2 1 (-1)%Z = Ok h' /\
    hget h' 0 9 = Some (-1)%Z /\ hget h' 0 13 = Some 113%Z.
Proof. split; [exact ex_dense_valid|]. eexists. split; [reflexivity|]. vm_compute. auto. Qed.

(** C16: slices of the container. *)
Theorem C16_slices : forall (T : Type) (h : @heap T) b first last,
  region_ok h (c_region (bm_data b)) ->
  (panics (get_slice b first last) <->
     ~ (first < last /\ last <= r_len (c_region (bm_data b)))) /\
  (panics (get_slice_mut b first last) <->
     ~ (first < last /\ last <= r_len (c_region (bm_data b)))) /\
  (first < last /\ last <= r_len (c_region (bm_data b)) ->
   exists r, get_slice b first last = Ok r /\ get_slice_mut b first last = Ok r /\
     r_len r = last - first /\
     (forall k, k < last - first ->
        cell_of_region r k = cell_of_region (c_region (bm_data b)) (first + k) /\
        returns_entry (region_read h r k)
          (hget h (r_alloc (c_region (bm_data b))) (r_lo (c_region (bm_data b)) + (first + k)))) /\
     (forall k v, k < last - first ->
        exists p h', region_place r k = Ok p /\ place_write h p v = Ok h' /\
          one_cell_written h h' (r_alloc (c_region (bm_data b)))
            (r_lo (c_region (bm_data b)) + (first + k)) v)).
Proof. exact @c16. Qed.
Print Assumptions C16_slices.

Example C16_example : region_ok ex_heap (c_region (bm_data ex_strided)) /\
  get_slice ex_strided 3 6 = Ok (mkRegion 0 5 3) /\
  map (region_read ex_heap (mkRegion 0 5 3)) [0; 1; 2; 3] = [Ok 105%Z; Ok 106%Z; Ok 107%Z; UB] /\
  get_slice ex_strided 3 11 = Panic /\ get_slice_mut ex_strided 4 4 = Panic.
Proof. split; [apply ex_strided_valid|]. vm_compute. auto. Qed.
