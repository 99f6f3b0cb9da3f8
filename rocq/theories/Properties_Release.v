(** * C13, C24, C35 without overflow checks: what happens, for all sizes. *)

From Coq Require Import ZArith Lia.
From Verif Require Import Machine Layouts Memory Matrix MatMul Spec MatrixSpec ProductSpec.
From Verif Require Import ZScalar AccessProofs ConstructorProofs BlockProofs ProductProofs ReleaseProofs Properties_Products.
Local Open Scope N_scope.

(** C13, as stated: a request whose size does not fit panics. Without overflow
    checks the size is reduced modulo 2^64 first. The request panics if the
    reduced size cannot be allocated; otherwise a matrix is returned, its
    container holds the reduced number of zeros, every access within the
    dimension returns zero or leaves the container, and no access leaves it
    exactly if nothing was reduced. *)
Theorem C13_release_exact_partial : forall (T : Type) (SC : HScalar T) (h : @heap T) k rows cols,
  k = KRowMajor \/ k = KColumnMajor ->
  let n := (rows * cols) mod usize_mod in
  let h' := h ++ [repeat szero (N.to_nat n)] in
  (isize_max < n * Npos ssize -> zeros_from_dim Wrapping h k rows cols = Panic) /\
  (n * Npos ssize <= isize_max ->
   exists b, zeros_from_dim Wrapping h k rows cols = Ok (h', b) /\
     mat_dim (@MBase T b) = (rows, cols) /\ index_kind (bm_layout b) = k /\ dense_matrix (bm_layout b) = true /\
     c_region (bm_data b) = mkRegion (length h) 0 n /\
     (forall r c, in_range (rows, cols) (r, c) ->
        get Wrapping h' (MBase b) r c = if cell (bm_layout b) (r, c) mod usize_mod <? n then Ok szero else UB) /\
     ((forall r c, get Wrapping h' (MBase b) r c <> UB) <-> rows * cols < usize_mod)).
Proof. exact @c13_release. Qed.
Print Assumptions C13_release_exact_partial.

(** A (2^62 + 1) x 4 matrix gets four zeros: the first and the last row are read
    from them, every other row lies outside. *)
Example C13_release_example :
  (let n := ((2 ^ 62 + 1) * 4) mod usize_mod in n = 4 /\ n * Npos (ssize (T := Z)) <= isize_max) /\
  isize_max < ((2 ^ 31 * 2 ^ 31) mod usize_mod) * Npos (ssize (T := Z)) /\
  ('(h, b) <- zeros_from_dim (T := Z) Wrapping [] KRowMajor (2 ^ 62 + 1) 4 ;; get Wrapping h (MBase b) 0 3) = Ok 0%Z /\
  ('(h, b) <- zeros_from_dim (T := Z) Wrapping [] KRowMajor (2 ^ 62 + 1) 4 ;; get Wrapping h (MBase b) 1 0) = UB /\
  ('(h, b) <- zeros_from_dim (T := Z) Wrapping [] KRowMajor (2 ^ 62 + 1) 4 ;; get Wrapping h (MBase b) (2 ^ 62) 3) = Ok 0%Z /\
  zeros_from_dim (T := Z) Wrapping [] KRowMajor (2 ^ 31) (2 ^ 31) = Panic.
Proof. vm_compute. intuition congruence. Qed.

(** C24, as stated: a request for more entries than the stretch of storage from
    the first to the last entry has elements panics. Without overflow checks it
    panics exactly if the reduced number of entries is too large. Otherwise the
    view is the requested one: reads within the dimension return the entries at
    the requested places, all others panic. *)
Theorem C24_release_exact_partial : forall (T : Type) (SC : HScalar T) (h : @heap T) mut o p d s,
  slice_ok h (p_region p) -> nonempty d ->
  let last := (fst d - 1) * fst s + (snd d - 1) * snd s in
  p_off p + last < r_len (p_region p) ->
  let n := (fst d * snd d) mod usize_mod in
  (last + 1 < n -> from_pointer_strided Wrapping mut o p d s = Panic) /\
  (n <= last + 1 ->
   exists b, from_pointer_strided Wrapping mut o p d s = Ok b /\ dim (bm_layout b) = d /\
     container_is_mut (bm_data b) = mut /\
     c_region (bm_data b) = mkRegion (r_alloc (p_region p)) (r_lo (p_region p) + p_off p) (last + 1) /\
     (forall r c, in_range d (r, c) ->
        returns_entry (get Wrapping h (MBase b) r c)
          (hget h (r_alloc (p_region p)) (r_lo (p_region p) + p_off p + (r * fst s + c * snd s)))) /\
     (forall r c, ~ in_range d (r, c) -> get Wrapping h (MBase b) r c = Panic)).
Proof. exact @c24_release_exact. Qed.
Print Assumptions C24_release_exact_partial.

Example C24_release_example :
  let h := [zlist 14 100] in
  let p := mkPointer (mkRegion 0 0 14) 2 in
  slice_ok h (p_region p) /\ nonempty (2 ^ 32, 2 ^ 32) /\
  (b <- from_pointer_strided Wrapping false ByRow p (2 ^ 32, 2 ^ 32) (0, 0) ;;
   get Wrapping h (MBase b) 77 (2 ^ 31)) = Ok 102%Z /\
  (b <- from_pointer_strided Wrapping false ByRow p (2 ^ 32, 2 ^ 32) (0, 0) ;;
   get Wrapping h (MBase b) 77 (2 ^ 32)) = Panic /\
  from_pointer_strided Wrapping false ByRow p (2 ^ 32, 2 ^ 32 + 1) (0, 0) = Panic.
Proof.
  split; [split; [exists (zlist 14 100); split; [reflexivity|discriminate]|discriminate]|].
  split; [split; discriminate|]. vm_compute. auto.
Qed.

(** C35, as stated: a result whose size does not fit panics. Without overflow
    checks exactly one of three things happens. *)
Theorem C35_release_exact_partial : forall (T : Type) (SC : HScalar T) shape kern (h : @heap T) a b,
  base_valid h a -> base_valid h b -> true_strides (bm_layout a) -> true_strides (bm_layout b) ->
  shape_fits shape (dim (bm_layout a)) (dim (bm_layout b)) ->
  snd (dim (bm_layout a)) = fst (dim (bm_layout b)) ->
  let rows := fst (dim (bm_layout a)) in
  let cols := snd (dim (bm_layout b)) in
  rows < usize_mod -> cols < usize_mod ->
  let n := (rows * cols) mod usize_mod in
  (isize_max < n * Npos ssize -> dot shape kern Wrapping h a b = Panic) /\
  (n * Npos ssize <= isize_max -> rows * cols < usize_mod -> returns (dot shape kern Wrapping h a b)) /\
  (n * Npos ssize <= isize_max -> usize_mod <= rows * cols -> dot shape kern Wrapping h a b = UB).
Proof. exact @c35_release_exact. Qed.
Print Assumptions C35_release_exact_partial.

(** Operands without entries whose product has too many: all three cases. *)
Definition wide_operand (d : N * N) : base_matrix :=
  mkBase (mkContainer VectorContainer (mkRegion 0 0 0)) (RowMajor d) Dynamic Dynamic.

Example C35_release_example :
  base_valid [@nil Z] (wide_operand (2 ^ 32, 0)) /\ base_valid [@nil Z] (wide_operand (0, 2 ^ 32)) /\
  true_strides (bm_layout (wide_operand (2 ^ 32, 0))) /\ true_strides (bm_layout (wide_operand (0, 2 ^ 32))) /\
  2 ^ 32 < usize_mod /\
  ((2 ^ 32 * 2 ^ 32) mod usize_mod) * Npos (ssize (T := Z)) <= isize_max /\ usize_mod <= 2 ^ 32 * 2 ^ 32 /\
  dot MatrixMatrix ex_kernel Wrapping [@nil Z] (wide_operand (2 ^ 31, 0)) (wide_operand (0, 2 ^ 31)) = Panic /\
  ('(h, r) <- dot MatrixMatrix ex_kernel Wrapping [@nil Z] (wide_operand (3, 0)) (wide_operand (0, 2)) ;;
   get Wrapping h (MBase r) 2 1) = Ok 0%Z.
Proof.
  assert (S : slice_ok [@nil Z] (mkRegion 0 0 0)).
  { split; [exists (@nil Z); split; [reflexivity|discriminate]|discriminate]. }
  split; [apply dense_base_valid; [exact S|reflexivity|reflexivity|discriminate]|].
  split; [apply dense_base_valid; [exact S|reflexivity|reflexivity|discriminate]|].
  split; [apply dense_true; reflexivity|]. split; [apply dense_true; reflexivity|].
  split; [reflexivity|]. split; [discriminate|]. split; [discriminate|]. vm_compute. auto.
Qed.
