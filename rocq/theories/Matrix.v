(** * Matrix: the matrix types and their methods.

    Models /repo/src/base_matrix.rs, matrix.rs, matrix/*.rs, matrix_ref.rs,
    addition.rs, scalar_mult.rs, tools.rs, traits/random_access.rs and
    traits/size.rs. *)

From Verif Require Import Machine Layouts Memory.
Local Open Scope N_scope.

(** The size identifiers and their constant [N]: traits/size.rs:19-51. *)
Inductive size_id := Fixed1 | Fixed2 | Fixed3 | Dynamic.
Definition size_N (s : size_id) : N :=
  match s with Fixed1 => 1 | Fixed2 => 2 | Fixed3 => 3 | Dynamic => 0 end.

(** [BaseMatrix]: base_matrix.rs:17-28; the last two fields are the phantom
    type parameters [RS] and [CS]. *)
Record base_matrix := mkBase {
  bm_data : container;
  bm_layout : layout;
  bm_rs : size_id;
  bm_cs : size_id
}.

Section Matrix.
Context {T : Type} {SC : HScalar T}.
Notation heap := (@heap T).

(** The matrix implementations a [Matrix] (matrix.rs:103-115) can hold. A
    reference to a matrix is modelled by the matrix itself: the borrow checker
    excludes that it changes while the reference lives, and the items it refers
    to live in the heap. *)
Inductive matrix :=
| MBase (b : base_matrix)                          (* base_matrix.rs:17 *)
| MRef (x : matrix)                                (* matrix_ref.rs:24 *)
| MRefMut (x : matrix)                             (* matrix_ref.rs:52 *)
| MScalarMult (x : matrix) (scalar : T)            (* scalar_mult.rs:22 *)
| MAddition (x y : matrix) (l : layout).           (* addition.rs:18 *)

(** ** BaseMatrix *)

(** [BaseMatrix::new] and [Matrix::from_data]: base_matrix.rs:38-51, matrix.rs:144-146. *)
Definition from_data (m : mode) (rs cs : size_id) (c : container) (l : layout) : outcome base_matrix :=
  n <- number_of_elements m l ;;
  _ <- assert_ (n <=? container_number_of_elements c) ;;
  Ok (mkBase c l rs cs).

(** [BaseMatrix::get_unchecked]: base_matrix.rs:131-134. *)
Definition base_get_unchecked (m : mode) (h : heap) (b : base_matrix) (row col : N) : outcome T :=
  i <- convert_2d_raw m (bm_layout b) row col ;; container_get_unchecked h (bm_data b) i.

(** [BaseMatrix::get1d_unchecked]: base_matrix.rs:137-139. *)
Definition base_get1d_unchecked (m : mode) (h : heap) (b : base_matrix) (index : N) : outcome T :=
  i <- convert_1d_raw m (bm_layout b) index ;; container_get_unchecked h (bm_data b) i.

(** [BaseMatrix::get_unchecked_mut]: base_matrix.rs:171-174. *)
Definition base_get_unchecked_mut (m : mode) (b : base_matrix) (row col : N) : outcome place :=
  i <- convert_2d_raw m (bm_layout b) row col ;; container_get_unchecked_mut (bm_data b) i.

(** [BaseMatrix::get1d_unchecked_mut]: base_matrix.rs:177-180. *)
Definition base_get1d_unchecked_mut (m : mode) (b : base_matrix) (index : N) : outcome place :=
  i <- convert_1d_raw m (bm_layout b) index ;; container_get_unchecked_mut (bm_data b) i.

(** [BaseMatrix::length], only for the layout [RowVector]: base_matrix.rs:142-158. *)
Definition base_length (b : base_matrix) : N := container_number_of_elements (bm_data b).

(** ** Layout, unchecked and checked access of a matrix *)

(** [Layout::layout]: base_matrix.rs:103-105, common_impl.rs:16-18,
    matrix_ref.rs:94-96, scalar_mult.rs:80-82, addition.rs:90-92. *)
Fixpoint mat_layout (x : matrix) : layout :=
  match x with
  | MBase b => bm_layout b
  | MRef x => mat_layout x
  | MRefMut x => mat_layout x
  | MScalarMult x _ => mat_layout x
  | MAddition _ _ l => l
  end.

(** The compile-time sizes [SizeType::R] and [SizeType::C] (base_matrix.rs:116-117,
    common_impl.rs:29-30, matrix_ref.rs:108-109, scalar_mult.rs:65-66,
    addition.rs:106-107); both operands of a sum have the same by typing. *)
Fixpoint mat_size (x : matrix) : size_id * size_id :=
  match x with
  | MBase b => (bm_rs b, bm_cs b)
  | MRef x => mat_size x
  | MRefMut x => mat_size x
  | MScalarMult x _ => mat_size x
  | MAddition x _ _ => mat_size x
  end.

(** [UnsafeRandomAccess::get_unchecked]: base_matrix.rs:131-134, common_impl.rs:44-46,
    matrix_ref.rs:124-126, scalar_mult.rs:96-98, addition.rs:124-130. *)
Fixpoint get_unchecked (m : mode) (h : heap) (x : matrix) (row col : N) : outcome T :=
  match x with
  | MBase b => base_get_unchecked m h b row col
  | MRef x => get_unchecked m h x row col
  | MRefMut x => get_unchecked m h x row col
  | MScalarMult x s => v <- get_unchecked m h x row col ;; Ok (smul s v)
  | MAddition x y _ =>
      v <- get_unchecked m h x row col ;;
      w <- get_unchecked m h y row col ;; Ok (sadd v w)
  end.

(** [UnsafeRandomAccess::get1d_unchecked]: base_matrix.rs:137-139, common_impl.rs:49-51,
    matrix_ref.rs:129-131, scalar_mult.rs:101-103, addition.rs:133-135. *)
Fixpoint get1d_unchecked (m : mode) (h : heap) (x : matrix) (index : N) : outcome T :=
  match x with
  | MBase b => base_get1d_unchecked m h b index
  | MRef x => get1d_unchecked m h x index
  | MRefMut x => get1d_unchecked m h x index
  | MScalarMult x s => v <- get1d_unchecked m h x index ;; Ok (smul s v)
  | MAddition x y _ =>
      v <- get1d_unchecked m h x index ;;
      w <- get1d_unchecked m h y index ;; Ok (sadd v w)
  end.

(** [UnsafeRandomAccessMut::get_unchecked_mut]: base_matrix.rs:171-174,
    common_impl.rs:65-67, matrix_ref.rs:151-153. The other matrices have no such
    method; [UB] stands for "no such program". *)
Fixpoint get_unchecked_mut (m : mode) (x : matrix) (row col : N) : outcome place :=
  match x with
  | MBase b => if container_is_mut (bm_data b) then base_get_unchecked_mut m b row col else UB
  | MRefMut x => get_unchecked_mut m x row col
  | _ => UB
  end.

(** [UnsafeRandomAccessMut::get1d_unchecked_mut]: base_matrix.rs:177-180,
    common_impl.rs:70-72, matrix_ref.rs:156-158. *)
Fixpoint get1d_unchecked_mut (m : mode) (x : matrix) (index : N) : outcome place :=
  match x with
  | MBase b => if container_is_mut (bm_data b) then base_get1d_unchecked_mut m b index else UB
  | MRefMut x => get1d_unchecked_mut m x index
  | _ => UB
  end.

(** [assert_dimension]: random_access.rs:72-87. *)
Definition assert_dimension (row col : N) (d : N * N) : outcome unit :=
  _ <- assert_ (row <? fst d) ;; assert_ (col <? snd d).

(** [assert_dimension1d]: random_access.rs:91-98. *)
Definition assert_dimension1d (elem nelems : N) : outcome unit := assert_ (elem <? nelems).

(** [RandomAccess::get]: random_access.rs:101-104. *)
Definition get (m : mode) (h : heap) (x : matrix) (row col : N) : outcome T :=
  _ <- assert_dimension row col (dim (mat_layout x)) ;; get_unchecked m h x row col.

(** [RandomAccess::get1d]: random_access.rs:106-109. *)
Definition get1d (m : mode) (h : heap) (x : matrix) (elem : N) : outcome T :=
  n <- number_of_elements m (mat_layout x) ;;
  _ <- assert_dimension1d elem n ;; get1d_unchecked m h x elem.

(** [RandomAccessMut::get_mut]: random_access.rs:113-116. *)
Definition get_mut (m : mode) (x : matrix) (row col : N) : outcome place :=
  _ <- assert_dimension row col (dim (mat_layout x)) ;; get_unchecked_mut m x row col.

(** [RandomAccessMut::get1d_mut]: random_access.rs:118-121. *)
Definition get1d_mut (m : mode) (x : matrix) (elem : N) : outcome place :=
  n <- number_of_elements m (mat_layout x) ;;
  _ <- assert_dimension1d elem n ;; get1d_unchecked_mut m x elem.

(** The statement [*x.get_mut(row, col) = v]. *)
Definition set (m : mode) (h : heap) (x : matrix) (row col : N) (v : T) : outcome heap :=
  p <- get_mut m x row col ;; place_write h p v.

(** The statement [*x.get1d_mut(elem) = v]. *)
Definition set1d (m : mode) (h : heap) (x : matrix) (elem : N) (v : T) : outcome heap :=
  p <- get1d_mut m x elem ;; place_write h p v.

(** [Matrix::dim]: common_impl.rs:101-103. *)
Definition mat_dim (x : matrix) : N * N := dim (mat_layout x).

(** [Matrix::length]: common_impl.rs:106-122; [None] when the compile-time sizes
    give the matrix no such method. *)
Definition mat_length (x : matrix) : option N :=
  match mat_size x with
  | (Fixed1, Dynamic) => Some (snd (dim (mat_layout x)))
  | (Dynamic, Fixed1) => Some (fst (dim (mat_layout x)))
  | _ => None
  end.

(** ** Expressions *)

(** [Matrix::from_ref]: matrix.rs:129-133. *)
Definition from_ref (x : matrix) : matrix := MRef x.

(** Equality of dimensions as in [assert_eq!] on pairs. *)
Definition dim_eqb (d e : N * N) : bool := (fst d =? fst e) && (snd d =? snd e).

(** [Addition::new]: addition.rs:50-74. *)
Definition addition_new (x y : matrix) : outcome matrix :=
  _ <- assert_ (dim_eqb (dim (mat_layout x)) (dim (mat_layout y))) ;;
  Ok (MAddition x y (index_layout (mat_layout x))).

(** The four [Add] operators: addition.rs:151-153, 171-173, 191-193, 220-222. *)
Definition add_mat_mat (x y : matrix) : outcome matrix := addition_new x y.
Definition add_mat_ref (x y : matrix) : outcome matrix := addition_new x (from_ref y).
Definition add_ref_mat (x y : matrix) : outcome matrix := addition_new (from_ref x) y.
Definition add_ref_ref (x y : matrix) : outcome matrix := addition_new (from_ref x) (from_ref y).

(** [ScalarMult::new]: scalar_mult.rs:45-54. *)
Definition scalar_mult_new (x : matrix) (s : T) : matrix := MScalarMult x s.

(** The four [Mul] operators: scalar_mult.rs:117-119, 133-135, 147-149, 163-165. *)
Definition mul_scalar_mat (s : T) (x : matrix) : matrix := scalar_mult_new x s.
Definition mul_scalar_ref (s : T) (x : matrix) : matrix := scalar_mult_new (from_ref x) s.
Definition mul_mat_scalar (x : matrix) (s : T) : matrix := scalar_mult_new x s.
Definition mul_ref_scalar (x : matrix) (s : T) : matrix := scalar_mult_new (from_ref x) s.

(** ** Constructors *)

(** [zeros_from_dim] of a dynamic matrix: constructors.rs:74-80. *)
Definition zeros_from_dim (m : mode) (h : heap) (k : base_kind) (rows cols : N)
    : outcome (heap * base_matrix) :=
  l <- from_dimension k (rows, cols) ;;
  n <- number_of_elements m l ;;
  '(h', c) <- vector_container_new h n ;;
  l' <- from_dimension k (rows, cols) ;;
  b <- from_data m Dynamic Dynamic c l' ;;
  Ok (h', b).

(** [zeros_from_dim] of a fixed size matrix: constructors.rs:24-29. *)
Definition zeros_fixed (m : mode) (h : heap) (k : base_kind) (rs cs : size_id)
    : outcome (heap * base_matrix) :=
  let '(h', c) := array_container_new h (size_N rs * size_N cs) in
  l <- from_dimension k (size_N rs, size_N cs) ;;
  b <- from_data m rs cs c l ;;
  Ok (h', b).

(** The instances of the macro: constructors.rs:47-63. *)
Definition fixed_instances : list (size_id * size_id * base_kind) :=
  [ (Fixed2, Fixed2, KRowMajor); (Fixed1, Fixed2, KRowMajor);
    (Fixed3, Fixed3, KRowMajor); (Fixed1, Fixed3, KRowMajor);
    (Fixed2, Fixed3, KRowMajor); (Fixed3, Fixed2, KRowMajor);
    (Fixed2, Fixed2, KColumnMajor); (Fixed1, Fixed2, KColumnMajor);
    (Fixed3, Fixed3, KColumnMajor); (Fixed1, Fixed3, KColumnMajor);
    (Fixed2, Fixed3, KColumnMajor); (Fixed3, Fixed2, KColumnMajor) ].

(** [from_length] by layout kind: row_vector.rs:76-78, column_vector.rs:76-78. *)
Definition from_length (k : base_kind) (n : N) : option layout :=
  match k with
  | KRowVector => Some (row_vector_from_length n)
  | KColumnVector => Some (column_vector_from_length n)
  | _ => None
  end.

(** [zeros_from_length] of a fixed size vector: constructors.rs:40-42. *)
Definition zeros_fixed_vector (m : mode) (h : heap) (rs cs : size_id) (k : base_kind) (n : N)
    : outcome (heap * base_matrix) :=
  let '(h', c) := array_container_new h n in
  match from_length k n with
  | Some l => b <- from_data m rs cs c l ;; Ok (h', b)
  | None => UB
  end.

(** The instances of the macro: constructors.rs:65-68. *)
Definition fixed_vector_instances : list (size_id * size_id * base_kind * N) :=
  [ (Fixed2, Fixed1, KColumnVector, 2); (Fixed3, Fixed1, KColumnVector, 3);
    (Fixed1, Fixed2, KRowVector, 2); (Fixed1, Fixed3, KRowVector, 3) ].

(** [RowVectorD::zeros_from_length]: constructors.rs:85-90. *)
Definition row_vector_zeros_from_length (m : mode) (h : heap) (nelems : N)
    : outcome (heap * base_matrix) :=
  '(h', c) <- vector_container_new h nelems ;;
  b <- from_data m Fixed1 Dynamic c (row_vector_from_length nelems) ;;
  Ok (h', b).

(** [RowVectorD::zeros_from_dim]: constructors.rs:94-104. *)
Definition row_vector_zeros_from_dim (m : mode) (h : heap) (rows cols : N)
    : outcome (heap * base_matrix) :=
  _ <- assert_ (rows =? 1) ;;
  '(h', c) <- vector_container_new h cols ;;
  b <- from_data m Fixed1 Dynamic c (row_vector_from_length cols) ;;
  Ok (h', b).

(** [ColumnVectorD::zeros_from_length]: constructors.rs:109-114. *)
Definition column_vector_zeros_from_length (m : mode) (h : heap) (nelems : N)
    : outcome (heap * base_matrix) :=
  '(h', c) <- vector_container_new h nelems ;;
  b <- from_data m Dynamic Fixed1 c (column_vector_from_length nelems) ;;
  Ok (h', b).

(** [ColumnVectorD::zeros_from_dim]: constructors.rs:118-128. *)
Definition column_vector_zeros_from_dim (m : mode) (h : heap) (rows cols : N)
    : outcome (heap * base_matrix) :=
  _ <- assert_ (cols =? 1) ;;
  '(h', c) <- vector_container_new h rows ;;
  b <- from_data m Dynamic Fixed1 c (column_vector_from_length rows) ;;
  Ok (h', b).

(** The container made from a slice by the mutable ([true]) and the shared
    ([false]) variant of a constructor. *)
Definition slice_container (mut : bool) (r : region) : container :=
  if mut then slice_container_mut_new r else slice_container_new r.

(** The two orders of a matrix layout, for the macro parameters [$L] below. *)
Inductive order := ByRow | ByColumn.

Definition strided_layout (o : order) (d s : N * N) : layout :=
  match o with
  | ByRow => ArbitraryStrideRowMajor d s         (* arbitrary_stride_row_major.rs:18-20 *)
  | ByColumn => ArbitraryStrideColumnMajor d s   (* arbitrary_stride_column_major.rs:19-21 *)
  end.

Definition dense_layout (o : order) (d : N * N) : layout :=
  match o with
  | ByRow => RowMajor d                          (* row_major.rs:16-18 *)
  | ByColumn => ColumnMajor d                    (* column_major.rs:16-18 *)
  end.

(** [from_pointer] with strides: constructors.rs:135-146 (mutable), 151-162. *)
Definition from_pointer_strided (m : mode) (mut : bool) (o : order) (p : pointer) (d s : N * N)
    : outcome base_matrix :=
  let new_layout := strided_layout o d s in
  r1 <- usub m (fst d) 1 ;; c1 <- usub m (snd d) 1 ;;
  raw <- convert_2d_raw m new_layout r1 c1 ;;
  nindices <- uadd m raw 1 ;;
  slice <- from_raw_parts p nindices ;;
  from_data m Dynamic Dynamic (slice_container mut slice) new_layout.

(** [from_pointer] without strides: constructors.rs:171-178 (mutable), 183-190. *)
Definition from_pointer (m : mode) (mut : bool) (o : order) (p : pointer) (d : N * N)
    : outcome base_matrix :=
  nindices <- umul m (fst d) (snd d) ;;
  slice <- from_raw_parts p nindices ;;
  from_data m Dynamic Dynamic (slice_container mut slice) (dense_layout o d).

(** ** Methods of base matrices *)

(** [get_pointer], [get_pointer_mut]: base_methods.rs:40-42, 68-70, base_matrix.rs:63-65, 82-84. *)
Definition get_pointer (b : base_matrix) : pointer := container_get_pointer (bm_data b).

(** [get_slice]: base_methods.rs:53-55, base_matrix.rs:68-70. *)
Definition get_slice (b : base_matrix) (first last : N) : outcome region :=
  container_get_slice (bm_data b) first last.

(** [get_slice_mut]: base_methods.rs:81-83, base_matrix.rs:87-89. *)
Definition get_slice_mut (b : base_matrix) (first last : N) : outcome region :=
  container_get_slice_mut (bm_data b) first last.

(** The order of the stride layout a block of a matrix gets: the instances
    matrix_slices.rs:146-159 of the macro [block_matrix]. *)
Definition block_order (l : layout) : option order :=
  match l with
  | RowMajor _ | ArbitraryStrideRowMajor _ _ => Some ByRow
  | ColumnMajor _ | ArbitraryStrideColumnMajor _ _ => Some ByColumn
  | _ => None
  end.

(** [block] ([mut = false]): matrix_slices.rs:19-39, and [block_mut]:
    matrix_slices.rs:48-69. The operands of [&] are both evaluated. *)
Definition block (m : mode) (mut : bool) (b : base_matrix) (top_left d : N * N)
    : outcome base_matrix :=
  match block_order (bm_layout b) with
  | None => UB
  | Some o =>
      r <- uadd m (fst top_left) (fst d) ;;
      c <- uadd m (snd top_left) (snd d) ;;
      _ <- assert_ ((r <=? fst (dim (bm_layout b))) && (c <=? snd (dim (bm_layout b)))) ;;
      start_index <- convert_2d_raw m (bm_layout b) (fst top_left) (snd top_left) ;;
      p <- ptr_add (get_pointer b) start_index ;;
      s <- stride (bm_layout b) ;;
      from_pointer_strided m mut o p d s
  end.

(** [split_in_four_mut]: matrix_slices.rs:89-141, only for the layout [RowMajor]
    (matrix_slices.rs:161). *)
Definition split_in_four_mut (m : mode) (b : base_matrix) (split_at : N * N)
    : outcome (base_matrix * base_matrix * base_matrix * base_matrix) :=
  let l := bm_layout b in
  let d := dim l in
  s <- stride l ;;
  let ptr := get_pointer b in
  let dim0 := split_at in
  d1 <- usub m (snd d) (snd split_at) ;;
  let dim1 := (fst split_at, d1) in
  d2 <- usub m (fst d) (fst split_at) ;;
  let dim2 := (d2, snd split_at) in
  d3r <- usub m (fst d) (fst split_at) ;; d3c <- usub m (snd d) (snd split_at) ;;
  let dim3 := (d3r, d3c) in
  start0 <- convert_2d_raw m l 0 0 ;;
  start1 <- convert_2d_raw m l 0 (snd split_at) ;;
  start2 <- convert_2d_raw m l (fst split_at) 0 ;;
  start3 <- convert_2d_raw m l (fst split_at) (snd split_at) ;;
  p0 <- ptr_offset ptr (as_isize start0) ;;
  b0 <- from_pointer_strided m true ByRow p0 dim0 s ;;
  p1 <- ptr_offset ptr (as_isize start1) ;;
  b1 <- from_pointer_strided m true ByRow p1 dim1 s ;;
  p2 <- ptr_offset ptr (as_isize start2) ;;
  b2 <- from_pointer_strided m true ByRow p2 dim2 s ;;
  p3 <- ptr_offset ptr (as_isize start3) ;;
  b3 <- from_pointer_strided m true ByRow p3 dim3 s ;;
  Ok (b0, b1, b2, b3).

(** A Rust closure [FnMut(&mut Item)] with captured state [St]: given the state
    and the item it returns the new state, the new item and whether it panicked
    (the effects up to the panic persist). *)
Definition closure (St : Type) := St -> T -> St * T * bool.

(** One call [f(self.get1d_unchecked_mut(index))]. The result says whether the
    closure, or the computation of the address, panicked. *)
Definition call_closure {St : Type} (m : mode) (b : base_matrix) (f : closure St) (index : N)
    (hs : heap * St) : outcome (heap * St * bool) :=
  let '(h, s) := hs in
  match base_get1d_unchecked_mut m b index with
  | Panic => Ok (h, s, true)
  | UB => UB
  | Ok p =>
      v <- place_read h p ;;
      let '(s', v', panicked) := f s v in
      h' <- place_write h p v' ;;
      Ok (h', s', panicked)
  end.

(** The loop of [for_each]; after a panic the items visited before keep their
    new values. *)
Fixpoint for_each_loop {St : Type} (m : mode) (b : base_matrix) (f : closure St)
    (n : nat) (index : N) (hs : heap * St) : outcome (heap * St * bool) :=
  match n with
  | O => Ok (hs, false)
  | S n' =>
      '(hs', panicked) <- call_closure m b f index hs ;;
      if panicked : bool then Ok (hs', true) else for_each_loop m b f n' (index + 1) hs'
  end.

(** [for_each]: base_methods.rs:23-27. The boolean says whether a call
    panicked, in which case the panic unwinds out of [for_each]. *)
Definition for_each {St : Type} (m : mode) (h : heap) (b : base_matrix) (f : closure St) (s : St)
    : outcome (heap * St * bool) :=
  n <- number_of_elements m (bm_layout b) ;;
  for_each_loop m b f (N.to_nat n) 0 (h, s).

(** [eval]: common_impl.rs:79-89, for matrices with dynamic sizes. *)
Definition eval (m : mode) (h : heap) (x : matrix) : outcome (heap * base_matrix) :=
  let d := dim (mat_layout x) in
  '(h1, result) <- zeros_from_dim m h (index_kind (mat_layout x)) (fst d) (snd d) ;;
  n <- number_of_elements m (mat_layout x) ;;
  h2 <- for_range n (fun index h =>
          v <- get1d_unchecked m h x index ;;
          p <- base_get1d_unchecked_mut m result index ;;
          place_write h p v) h1 ;;
  Ok (h2, result).

(** [fill_from_rand_standard_normal]: random.rs:22-25, for a scalar type whose
    [random_scalar] (tools.rs:20-48) is [random_scalar]; [G] is the state of the
    random number generator and the boolean says whether the loop panicked. *)
Definition fill_from_rand {G : Type} (m : mode) (h : heap) (b : base_matrix)
    (random_scalar : G -> T * G) (g : G) : outcome (heap * G * bool) :=
  for_each m h b (fun g _ => let '(v, g') := random_scalar g in (g', v, false)) g.

(** ** Macros *)

(** [mat!] with [RowMajor] (the default) or [ColumnMajor]: macros.rs:5-27. *)
Definition mat_macro (m : mode) (h : heap) (o : order) (d : N * N) : outcome (heap * base_matrix) :=
  zeros_from_dim m h (match o with ByRow => KRowMajor | ByColumn => KColumnMajor end) (fst d) (snd d).

(** [vector!] with [ColumnVector] (the default, here [ByColumn]) or [RowVector]:
    macros.rs:43-53. *)
Definition vector_macro (m : mode) (h : heap) (o : order) (len : N) : outcome (heap * base_matrix) :=
  match o with
  | ByColumn => column_vector_zeros_from_length m h len
  | ByRow => row_vector_zeros_from_length m h len
  end.

(** [rand_mat!]: macros.rs:30-40, for the generator state [g]. *)
Definition rand_mat_macro {G : Type} (m : mode) (h : heap) (random_scalar : G -> T * G) (g : G)
    (o : order) (d : N * N) : outcome (heap * base_matrix * G) :=
  '(h1, b) <- mat_macro m h o d ;;
  '(h2, g', panicked) <- fill_from_rand m h1 b random_scalar g ;;
  if panicked : bool then Panic else Ok (h2, b, g').

(** [rand_vector!]: macros.rs:56-66. *)
Definition rand_vector_macro {G : Type} (m : mode) (h : heap) (random_scalar : G -> T * G) (g : G)
    (o : order) (len : N) : outcome (heap * base_matrix * G) :=
  '(h1, b) <- vector_macro m h o len ;;
  '(h2, g', panicked) <- fill_from_rand m h1 b random_scalar g ;;
  if panicked : bool then Panic else Ok (h2, b, g').

End Matrix.
Arguments matrix T : clear implicits.

(** [random_scalar] of the real types: tools.rs:20-30. *)
Definition random_scalar_real {R G : Type} (sample : G -> R * G) (g : G) : R * G := sample g.

(** [random_scalar] of the complex types: tools.rs:32-48. The arguments of
    [new] are evaluated from left to right. *)
Definition random_scalar_complex {R G : Type} (sample : G -> R * G) (g : G) : (R * R) * G :=
  let '(re, g1) := sample g in
  let '(im, g2) := sample g1 in
  ((re, im), g2).
