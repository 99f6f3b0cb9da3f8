(** * Properties C25 - C31: expressions, evaluation and traversals; C36 for
    expressions. *)

From Verif Require Import Machine Layouts Memory Matrix Spec MatrixSpec ExprSpec AccessProofs ExprProofs ZScalar.
From Verif Require Import Properties_Access.
From Coq Require Import Lia.
Local Open Scope N_scope.

(** For the examples: a dense 2 x 3 matrix in another allocation than
    [ex_strided] (2 x 3, strides (5, 2)), and an expression of both. *)
Definition ex_small : base_matrix :=
  mkBase (mkContainer VectorContainer (mkRegion 1 0 9)) (RowMajor (2, 3)) Dynamic Dynamic.

Lemma ex_small_valid : base_valid ex_heap ex_small.
Proof.
  apply dense_base_valid with (l := RowMajor (2, 3)); try reflexivity.
  - split; [|discriminate]. exists (zlist 9 200). split; [reflexivity|discriminate].
  - discriminate.
Qed.

(** [(3 * &a) + &(b * 2 + a)] *)
Definition ex_expr : expr Z :=
  Plus ByValue (ScalarTimes 3%Z ByReference (Leaf ex_small))
       ByReference (Plus ByValue (TimesScalar ByValue (Leaf ex_strided) 2%Z) ByValue (Leaf ex_small)).

Lemma ex_expr_ok : all_leaves (leaf_ok ex_heap (2, 3) KRowMajor) ex_expr.
Proof.
  unfold all_leaves. cbn [leaves ex_expr app].
  repeat (apply Forall_cons; [split; [exact ex_small_valid || exact ex_strided_valid | split; reflexivity]|]).
  apply Forall_nil.
Qed.

(** C25: an expression of any depth denotes the algebraic expression. [build]
    does not take a heap, so it reads and writes nothing. *)
Theorem C25_expressions : forall (T : Type) (SC : HScalar T) m (h : @heap T) d k e,
  all_leaves (leaf_ok h d k) e ->
  exists x, build e = Ok x /\ valid h x /\ mat_dim x = d /\ index_kind (mat_layout x) = k /\
    forall i j,
      (stored (mat_layout x) (i, j) ->
         returns_entry (get m h x i j) (denote (base_entry h) e (i, j))) /\
      (~ stored (mat_layout x) (i, j) -> panics (get m h x i j)).
Proof. exact @c25. Qed.
Print Assumptions C25_expressions.

Example C25_example : all_leaves (leaf_ok ex_heap (2, 3) KRowMajor) ex_expr /\
  exists x, build ex_expr = Ok x /\ get Checked ex_heap x 1 2 = Ok (3 * 205 + (2 * 111 + 205))%Z.
Proof. split; [exact ex_expr_ok|]. eexists. split; [reflexivity|]. reflexivity. Qed.

(** C26: evaluation, of expressions that are not dynamically sized column
    vectors of a length other than one. *)
Theorem C26_eval_partial : forall (T : Type) (SC : HScalar T) m (h : @heap T) x, valid h x ->
  (column_vector_like (mat_layout x) = true -> fst (mat_dim x) = 1) ->
  (entry_count (mat_layout x) * Npos ssize <= isize_max ->
   exists h' b, eval m h x = Ok (h', b) /\
     only_allocates h h' /\ (length h <= r_alloc (c_region (bm_data b)))%nat /\
     keeps_matrices h h' /\ base_valid h' b /\ container_is_mut (bm_data b) = true /\
     dim (bm_layout b) = mat_dim x /\ index_kind (bm_layout b) = index_kind (mat_layout x) /\
     forall p, stored (mat_layout x) p ->
       stored (bm_layout b) p /\ base_entry h' b p = entry h x p) /\
  (isize_max < entry_count (mat_layout x) * Npos ssize -> panics (eval m h x)).
Proof. exact @c26. Qed.
Print Assumptions C26_eval_partial.

Example C26_example :
  valid ex_heap ex_sum /\ (column_vector_like (mat_layout ex_sum) = true -> fst (mat_dim ex_sum) = 1) /\
  entry_count (mat_layout ex_sum) * Npos ssize <= isize_max /\
  exists h' b, eval Checked ex_heap ex_sum = Ok (h', b) /\
    get Checked h' (MBase b) 1 2 = Ok (10 * 205 + 111)%Z /\ get1d Checked h' (MBase b) 3 = Ok (2030 + 107)%Z.
Proof.
  split; [exact ex_sum_valid|]. split; [discriminate|]. split; [discriminate|].
  do 2 eexists. split; [reflexivity|]. vm_compute. auto.
Qed.

(** Column vectors with dynamic sizes cannot be evaluated: [eval] panics,
    because [ColumnVector::from_dimension] checks the wrong component. *)
Theorem C26_column_vector_refuted : forall (T : Type) (SC : HScalar T) m (h : @heap T) x,
  column_vector_like (mat_layout x) = true -> fst (mat_dim x) <> 1 -> panics (eval m h x).
Proof. exact @c26_column. Qed.
Print Assumptions C26_column_vector_refuted.

Definition ex_column : base_matrix :=
  mkBase (mkContainer VectorContainer (mkRegion 1 0 9)) (ColumnVector 9) Dynamic Dynamic.

Theorem C26_witness_refuted : exists (h : @heap Z) b,
  base_valid h b /\ mat_size (@MBase Z b) = (Dynamic, Dynamic) /\
  panics (eval Checked h (MBase b)) /\ panics (eval Wrapping h (MBase b)).
Proof.
  exists ex_heap, ex_column. split; [|split; [reflexivity|split; reflexivity]].
  apply dense_base_valid with (l := ColumnVector 9); try reflexivity.
  split; [|discriminate]. exists (zlist 9 200). split; [reflexivity|discriminate].
Qed.
Print Assumptions C26_witness_refuted.

(** C27: passing operands by value or by reference makes no difference. *)
Theorem C27_sums : forall (T : Type) (SC : HScalar T) p q p' q' (x y : matrix T),
  (panics (plus p q x y) <-> panics (plus p' q' x y)) /\
  forall z z', plus p q x y = Ok z -> plus p' q' x y = Ok z' ->
    mat_layout z = mat_layout z' /\
    forall m h, (forall i j, get m h z i j = get m h z' i j) /\ (forall i, get1d m h z i = get1d m h z' i).
Proof. exact @c27_plus. Qed.
Print Assumptions C27_sums.

Theorem C27_scalar_products : forall (T : Type) (SC : HScalar T) s p p' (x : matrix T),
  let variants := [scalar_times s p x; times_scalar p x s; scalar_times s p' x; times_scalar p' x s] in
  forall z z', In z variants -> In z' variants ->
    mat_layout z = mat_layout z' /\
    forall m h, (forall i j, get m h z i j = get m h z' i j) /\ (forall i, get1d m h z i = get1d m h z' i).
Proof. exact @c27_times. Qed.
Print Assumptions C27_scalar_products.

Example C27_example : exists z z',
  plus ByValue ByReference (MBase ex_small) (MBase ex_strided) = Ok z /\
  plus ByReference ByValue (MBase ex_small) (MBase ex_strided) = Ok z' /\ z <> z' /\
  get Checked ex_heap z 1 1 = Ok (204 + 109)%Z /\ get Checked ex_heap z' 1 1 = Ok (204 + 109)%Z /\
  get Checked ex_heap z 2 1 = Panic /\ get Checked ex_heap z' 2 1 = Panic /\
  get Checked ex_heap (scalar_times 7%Z ByReference (MBase ex_small)) 1 1 = Ok (7 * 204)%Z /\
  get Checked ex_heap (times_scalar ByValue (MBase ex_small) 7%Z) 1 1 = Ok (7 * 204)%Z.
Proof.
  do 2 eexists. split; [reflexivity|]. split; [reflexivity|]. split; [discriminate|]. vm_compute. auto 10.
Qed.

(** C28: adding panics exactly on a mismatch of the dimensions. *)
Theorem C28_add_panics : forall (T : Type) p q (x y : matrix T),
  (panics (plus p q x y) <-> mat_dim x <> mat_dim y) /\ plus p q x y <> UB.
Proof. exact @c28. Qed.
Print Assumptions C28_add_panics.

Example C28_example :
  plus ByValue ByReference (@MBase Z ex_small) (MBase ex_dense) = Panic /\
  mat_dim (@MBase Z ex_small) <> mat_dim (@MBase Z ex_dense) /\
  returns (plus ByValue ByReference (@MBase Z ex_small) (MBase ex_strided)).
Proof. split; [reflexivity|]. split; [discriminate|]. eexists. reflexivity. Qed.

(** C29: 1d and 2d access to an expression agree. *)
Theorem C29_expression_indices : forall (T : Type) (SC : HScalar T) m (h : @heap T) d k e x r c i,
  all_leaves (leaf_ok h d k) e -> build e = Ok x ->
  stored (mat_layout x) (r, c) -> convert_2d_1d m (mat_layout x) r c = Ok i ->
  get1d m h x i = get m h x r c /\
  returns_entry (get m h x r c) (denote (base_entry h) e (r, c)).
Proof. exact @c29_expr. Qed.
Print Assumptions C29_expression_indices.

Example C29_example : exists x, build ex_expr = Ok x /\ stored (mat_layout x) (1, 2) /\
  convert_2d_1d Checked (mat_layout x) 1 2 = Ok 5 /\
  get1d Checked ex_heap x 5 = Ok (3 * 205 + (2 * 111 + 205))%Z.
Proof. eexists. split; [reflexivity|]. split; [repeat split; discriminate|]. split; reflexivity. Qed.

(** C30: [for_each] calls the closure on each entry once, in 1d order, threads
    the state and changes nothing else - also if the closure panics. *)
Theorem C30_for_each : forall (T : Type) (St : Type) m (h : @heap T) b (f : closure St) s,
  base_valid h b -> no_aliasing (bm_layout b) ->
  exists vs, lists_entries h b vs /\
  forall s' ws panicked, visit f s vs = (s', ws, panicked) ->
  exists h', for_each m h b f s = Ok (h', s', panicked) /\ lists_entries h' b ws /\
    changes_only (fun q => exists p, stored (bm_layout b) p /\ q = entry_cell b p) h h'.
Proof. exact @c30. Qed.
Print Assumptions C30_for_each.

(** For views whose entries may share cells: the closure sees the content of the
    cells of the entries, in 1d order, as earlier calls left it. *)
Theorem C30_for_each_any_layout : forall (T : Type) (St : Type) m (h : @heap T) b (f : closure St) s,
  base_valid h b ->
  exists qs h' s' panicked, lists_cells b qs /\ visit_cells f h s qs = Some (h', s', panicked) /\
    for_each m h b f s = Ok (h', s', panicked).
Proof. exact @c30_cells. Qed.
Print Assumptions C30_for_each_any_layout.

(** A closure that adds its running count to the entry and panics at the fifth
    call, after changing the entry. *)
Definition ex_closure : closure (T := Z) N :=
  fun s v => (s + 1, (v + 1000 * Z.of_N s)%Z, s =? 4).

Example C30_example : base_valid ex_heap ex_strided /\ no_aliasing (bm_layout ex_strided) /\
  exists h', for_each Checked ex_heap ex_strided ex_closure 0 = Ok (h', 5, true) /\
    h' = [[100; 101; 102; 103; 1104; 105; 2106; 3107; 108; 4109; 110; 111; 112; 113]%Z; zlist 9 200].
Proof.
  split; [exact ex_strided_valid|]. split.
  - intros _. left. split; [discriminate|reflexivity].
  - eexists. split; reflexivity.
Qed.

(** Over memory that is gone it would be undefined, not a panic. *)
Example C30_freed_example : for_each Checked [] ex_strided ex_closure 0 = UB.
Proof. reflexivity. Qed.

(** C31: filling with random numbers. For real scalars [random_scalar] is one
    sample; for complex ones see below. *)
Theorem C31_fill : forall (T G : Type) (random_scalar : G -> T * G) m (h : @heap T) b g,
  base_valid h b -> no_aliasing (bm_layout b) ->
  exists h' xs g', samples random_scalar (N.to_nat (entry_count (bm_layout b))) g = (xs, g') /\
    fill_from_rand m h b random_scalar g = Ok (h', g', false) /\ lists_entries h' b xs /\
    changes_only (fun q => exists p, stored (bm_layout b) p /\ q = entry_cell b p) h h'.
Proof. exact @c31. Qed.
Print Assumptions C31_fill.

Theorem C31_fill_real : forall (T G : Type) (sample : G -> T * G) m (h : @heap T) b g,
  base_valid h b -> no_aliasing (bm_layout b) ->
  exists h' xs g', samples sample (N.to_nat (entry_count (bm_layout b))) g = (xs, g') /\
    fill_from_rand m h b (random_scalar_real sample) g = Ok (h', g', false) /\ lists_entries h' b xs.
Proof. exact @c31_real. Qed.
Print Assumptions C31_fill_real.

(** Complex entries: entry number [i] is made of the samples 2i and 2i+1. *)
Theorem C31_fill_complex : forall (R G : Type) (sample : G -> R * G) m (h : @heap (R * R)) b g,
  base_valid h b -> no_aliasing (bm_layout b) ->
  exists h' xs g', samples sample (2 * N.to_nat (entry_count (bm_layout b))) g = (xs, g') /\
    fill_from_rand m h b (random_scalar_complex sample) g = Ok (h', g', false) /\
    forall p, stored (bm_layout b) p -> exists re im,
      base_entry h' b p = Some (re, im) /\
      nth_error xs (2 * N.to_nat (number (bm_layout b) p)) = Some re /\
      nth_error xs (2 * N.to_nat (number (bm_layout b) p) + 1) = Some im.
Proof. exact @c31_complex. Qed.
Print Assumptions C31_fill_complex.

(** The macros [rand_mat!] and [rand_vector!]. *)
Theorem C31_rand_mat : forall (T : Type) (SC : HScalar T) (G : Type) (random_scalar : G -> T * G)
    m (h : @heap T) g o d,
  fst d * snd d * Npos ssize <= isize_max ->
  exists h' b xs g', samples random_scalar (N.to_nat (fst d * snd d)) g = (xs, g') /\
    rand_mat_macro m h random_scalar g o d = Ok (h', b, g') /\
    bm_layout b = (match o with ByRow => RowMajor d | ByColumn => ColumnMajor d end) /\
    base_valid h' b /\ lists_entries h' b xs /\ only_allocates h h'.
Proof. exact @rand_mat_ok. Qed.
Print Assumptions C31_rand_mat.

Theorem C31_rand_vector : forall (T : Type) (SC : HScalar T) (G : Type) (random_scalar : G -> T * G)
    m (h : @heap T) g o n,
  n * Npos ssize <= isize_max ->
  exists h' b xs g', samples random_scalar (N.to_nat n) g = (xs, g') /\
    rand_vector_macro m h random_scalar g o n = Ok (h', b, g') /\
    bm_layout b = (match o with ByRow => RowVector n | ByColumn => ColumnVector n end) /\
    base_valid h' b /\ lists_entries h' b xs /\ only_allocates h h'.
Proof. exact @rand_vector_ok. Qed.
Print Assumptions C31_rand_vector.

(** A generator: the state counts up, samples are its squares. *)
Definition ex_sample (g : Z) : Z * Z := (g * g, g + 1)%Z.

Example C31_example : base_valid ex_heap ex_triangular /\ no_aliasing (bm_layout ex_triangular) /\
  (exists h', fill_from_rand Checked ex_heap ex_triangular ex_sample 3%Z = Ok (h', 9%Z, false) /\
    get Checked h' (MBase ex_triangular) 2 2 = Ok 9%Z /\ get Checked h' (MBase ex_triangular) 0 2 = Ok 64%Z) /\
  (exists h' b, rand_mat_macro Checked ex_heap ex_sample 3%Z ByColumn (2, 2) = Ok (h', b, 7%Z) /\
    get Checked h' (MBase b) 1 0 = Ok 16%Z) /\
  (exists h', fill_from_rand (T := Z * Z) Checked [[(0, 0); (0, 0)]%Z]
      (mkBase (mkContainer VectorContainer (mkRegion 0 0 2)) (RowVector 2) Fixed1 Dynamic)
      (random_scalar_complex ex_sample) 1%Z = Ok (h', 5%Z, false) /\ h' = [[(1, 4); (9, 16)]%Z]).
Proof.
  split; [exact ex_triangular_valid|]. split; [discriminate|]. split; [|split].
  - eexists. split; [reflexivity|]. vm_compute. auto.
  - do 2 eexists. split; [reflexivity|]. reflexivity.
  - eexists. split; reflexivity.
Qed.

(** C36 for expressions: replacing the leaves by matrices with the same entries
    in other containers, physical layouts and memories changes nothing. *)
Theorem C36_expressions : forall (T : Type) (SC : HScalar T) m (h h' : @heap T) d k e f,
  all_leaves (leaf_ok h d k) e -> all_leaves (leaf_ok h' d k) f ->
  same_shape (fun b c => same_matrix h b h' c) e f ->
  exists x y, build e = Ok x /\ build f = Ok y /\ mat_dim x = mat_dim y /\
    forall i j, get m h x i j = get m h' y i j.
Proof. exact @c36. Qed.
Print Assumptions C36_expressions.

(** The same entries stored densely and with strides. *)
Definition ex_heap_copies : @heap Z := [[1; 2; 3; 4; 5; 6]; [0; 1; 0; 2; 0; 3; 4; 9; 5; 9; 6]]%Z.
Definition ex_copy_dense : base_matrix :=
  mkBase (mkContainer VectorContainer (mkRegion 0 0 6)) (RowMajor (2, 3)) Dynamic Dynamic.
Definition ex_copy_strided : base_matrix :=
  mkBase (mkContainer SliceContainer (mkRegion 1 1 10)) (ArbitraryStrideRowMajor (2, 3) (5, 2)) Dynamic Dynamic.

Lemma ex_copies_agree : forall p, stored (bm_layout ex_copy_dense) p ->
  base_entry ex_heap_copies ex_copy_dense p = base_entry ex_heap_copies ex_copy_strided p.
Proof.
  intros [r c] [[Hr Hc] _]. cbn in Hr, Hc.
  assert (R : r = 0 \/ r = 1) by lia. assert (C : c = 0 \/ c = 1 \/ c = 2) by lia.
  destruct R as [-> | ->], C as [-> | [-> | ->]]; reflexivity.
Qed.

Example C36_example :
  leaf_ok ex_heap_copies (2, 3) KRowMajor ex_copy_dense /\
  leaf_ok ex_heap_copies (2, 3) KRowMajor ex_copy_strided /\
  same_matrix ex_heap_copies ex_copy_dense ex_heap_copies ex_copy_strided.
Proof.
  split; [|split].
  - split; [|split; reflexivity]. apply dense_base_valid with (l := RowMajor (2, 3)); try reflexivity.
    split; [|discriminate]. eexists. split; [reflexivity|discriminate].
  - split; [|split; reflexivity].
    apply strided_base_valid with (l := ArbitraryStrideRowMajor (2, 3) (5, 2)); try reflexivity.
    split; [|discriminate]. eexists. split; [reflexivity|discriminate].
  - split; [reflexivity|]. split; [reflexivity|]. exact ex_copies_agree.
Qed.
