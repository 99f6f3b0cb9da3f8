(** * Generic: the code of the library for any implementation of its traits.

    Matrix.v and MatMul.v model the generic code for the layouts and containers the
    crate itself defines. The traits are public and their documentation invites
    implementations (traits/random_access.rs:3-10, traits/layout.rs:42-57, 84-134,
    data_container.rs:1-9). Here the same code is written for any implementation: the
    methods of a trait are functions of the receiver (and, where they read items, of the
    heap), each of which may return, panic or be undefined behaviour. Implementations
    whose answers change from call to call without a change of the receiver or of the
    heap (interior mutability) are not covered. *)

From Verif Require Import Machine Layouts Memory Matrix MatMul.
Local Open Scope N_scope.

(** [LayoutType] and [BaseLayoutType]: traits/layout.rs:84-87, 105-134. [L] are the
    layouts of all types of a program, the crate's and the user's; [K] are the types
    implementing [BaseLayoutType], and [t_index_type] is the associated type
    [IndexLayout]. *)
Class LayoutTraits (L K : Type) := {
  t_stride : L -> outcome (N * N);
  t_dim : L -> outcome (N * N);
  t_number_of_elements : L -> outcome N;
  t_convert_1d_2d : L -> N -> outcome (N * N);
  t_convert_2d_1d : L -> N -> N -> outcome N;
  t_convert_1d_raw : L -> N -> outcome N;
  t_convert_2d_raw : L -> N -> N -> outcome N;
  t_index_layout : L -> outcome L;
  t_index_type : L -> K;
  t_from_dimension : K -> N * N -> outcome L
}.

(** [DataContainer] and [DataContainerMut]: data_container.rs:13-43, 45-77. [holds] makes the
    crate's [VectorContainer], which [eval] and [dot] put their results into. *)
Class ContainerTraits (T C : Type) := {
  d_get_unchecked : @heap T -> C -> N -> outcome T;
  d_get_pointer : C -> outcome pointer;
  d_number_of_elements : C -> outcome N;
  d_get_unchecked_mut : C -> N -> outcome place;
  holds : container -> C
}.

Section Generic.
Context {T : Type} {SC : HScalar T}.
Context {L K : Type} {LT : LayoutTraits L K}.
Context {C : Type} {CT : ContainerTraits T C}.
Notation heap := (@heap T).

(** A matrix as the generic code sees it: [Layout::layout], [UnsafeRandomAccess] and
    [UnsafeRandomAccessMut]: traits/layout.rs:138-143, traits/random_access.rs:28-48. The latter is
    not implemented by every matrix; what it would do then plays no role. *)
Record impl := mkImpl {
  i_layout : L;
  i_get_unchecked : heap -> N -> N -> outcome T;
  i_get1d_unchecked : heap -> N -> outcome T;
  i_get_unchecked_mut : N -> N -> outcome place;
  i_get1d_unchecked_mut : N -> outcome place
}.

(** [RandomAccess::get], [get1d]: random_access.rs:100-110. *)
Definition g_get (h : heap) (x : impl) (row col : N) : outcome T :=
  d <- t_dim (i_layout x) ;;
  _ <- assert_dimension row col d ;; i_get_unchecked x h row col.
Definition g_get1d (h : heap) (x : impl) (elem : N) : outcome T :=
  n <- t_number_of_elements (i_layout x) ;;
  _ <- assert_dimension1d elem n ;; i_get1d_unchecked x h elem.

(** [RandomAccessMut::get_mut], [get1d_mut] and an assignment through them:
    random_access.rs:112-122. *)
Definition g_get_mut (x : impl) (row col : N) : outcome place :=
  d <- t_dim (i_layout x) ;;
  _ <- assert_dimension row col d ;; i_get_unchecked_mut x row col.
Definition g_get1d_mut (x : impl) (elem : N) : outcome place :=
  n <- t_number_of_elements (i_layout x) ;;
  _ <- assert_dimension1d elem n ;; i_get1d_unchecked_mut x elem.
Definition g_set (h : heap) (x : impl) (row col : N) (v : T) : outcome heap :=
  p <- g_get_mut x row col ;; place_write h p v.
Definition g_set1d (h : heap) (x : impl) (elem : N) (v : T) : outcome heap :=
  p <- g_get1d_mut x elem ;; place_write h p v.

(** A base matrix: base_matrix.rs:17-28. *)
Record g_base := mkGBase { gb_data : C; gb_layout : L }.

(** [BaseMatrix::new]: base_matrix.rs:38-51. *)
Definition g_from_data (c : C) (l : L) : outcome g_base :=
  n <- t_number_of_elements l ;;
  k <- d_number_of_elements c ;;
  _ <- assert_ (n <=? k) ;;
  Ok (mkGBase c l).

(** The traits of a base matrix: base_matrix.rs:92-181. *)
Definition of_base (b : g_base) : impl := {|
  i_layout := gb_layout b;
  i_get_unchecked h row col :=
    i <- t_convert_2d_raw (gb_layout b) row col ;; d_get_unchecked h (gb_data b) i;
  i_get1d_unchecked h index :=
    i <- t_convert_1d_raw (gb_layout b) index ;; d_get_unchecked h (gb_data b) i;
  i_get_unchecked_mut row col :=
    i <- t_convert_2d_raw (gb_layout b) row col ;; d_get_unchecked_mut (gb_data b) i;
  i_get1d_unchecked_mut index :=
    i <- t_convert_1d_raw (gb_layout b) index ;; d_get_unchecked_mut (gb_data b) i |}.

(** [MatrixRef], [MatrixRefMut]: matrix_ref.rs:80-159. *)
Definition g_ref (x : impl) : impl := {|
  i_layout := i_layout x;
  i_get_unchecked h row col := i_get_unchecked x h row col;
  i_get1d_unchecked h index := i_get1d_unchecked x h index;
  i_get_unchecked_mut row col := i_get_unchecked_mut x row col;
  i_get1d_unchecked_mut index := i_get1d_unchecked_mut x index |}.

(** [ScalarMult]: scalar_mult.rs:69-104. *)
Definition g_scalar_mult (x : impl) (s : T) : impl := {|
  i_layout := i_layout x;
  i_get_unchecked h row col := v <- i_get_unchecked x h row col ;; Ok (smul s v);
  i_get1d_unchecked h index := v <- i_get1d_unchecked x h index ;; Ok (smul s v);
  i_get_unchecked_mut _ _ := UB;
  i_get1d_unchecked_mut _ := UB |}.

(** [Addition::new] and the traits of a sum: addition.rs:50-74, 77-137. *)
Definition g_addition (x y : impl) : outcome impl :=
  d <- t_dim (i_layout x) ;; e <- t_dim (i_layout y) ;;
  _ <- assert_ (dim_eqb d e) ;;
  l <- t_index_layout (i_layout x) ;;
  Ok {| i_layout := l;
        i_get_unchecked h row col :=
          v <- i_get_unchecked x h row col ;; w <- i_get_unchecked y h row col ;; Ok (sadd v w);
        i_get1d_unchecked h index :=
          v <- i_get1d_unchecked x h index ;; w <- i_get1d_unchecked y h index ;; Ok (sadd v w);
        i_get_unchecked_mut _ _ := UB;
        i_get1d_unchecked_mut _ := UB |}.

(** [zeros_from_dim] of a dynamic matrix: constructors.rs:74-80. *)
Definition g_zeros_from_dim (h : heap) (k : K) (rows cols : N) : outcome (heap * g_base) :=
  l <- t_from_dimension k (rows, cols) ;;
  n <- t_number_of_elements l ;;
  '(h', c) <- vector_container_new h n ;;
  l' <- t_from_dimension k (rows, cols) ;;
  b <- g_from_data (holds c) l' ;;
  Ok (h', b).

(** [eval]: common_impl.rs:79-89. *)
Definition g_eval (h : heap) (x : impl) : outcome (heap * g_base) :=
  d <- t_dim (i_layout x) ;;
  '(h1, result) <- g_zeros_from_dim h (t_index_type (i_layout x)) (fst d) (snd d) ;;
  n <- t_number_of_elements (i_layout x) ;;
  h2 <- for_range n (fun index h =>
          v <- i_get1d_unchecked x h index ;;
          p <- i_get1d_unchecked_mut (of_base result) index ;;
          place_write h p v) h1 ;;
  Ok (h2, result).

(** [for_each]: base_methods.rs:23-27; a panic of the closure or of the layout ends the
    loop, and the items visited before keep their new values. *)
Definition g_call_closure {St : Type} (b : g_base) (f : closure St) (index : N)
    (hs : heap * St) : outcome (heap * St * bool) :=
  let '(h, s) := hs in
  match i_get1d_unchecked_mut (of_base b) index with
  | Panic => Ok (h, s, true)
  | UB => UB
  | Ok p =>
      v <- place_read h p ;;
      let '(s', v', panicked) := f s v in
      h' <- place_write h p v' ;;
      Ok (h', s', panicked)
  end.
Fixpoint g_for_each_loop {St : Type} (b : g_base) (f : closure St)
    (n : nat) (index : N) (hs : heap * St) : outcome (heap * St * bool) :=
  match n with
  | O => Ok (hs, false)
  | S n' =>
      '(hs', panicked) <- g_call_closure b f index hs ;;
      if panicked : bool then Ok (hs', true) else g_for_each_loop b f n' (index + 1) hs'
  end.
Definition g_for_each {St : Type} (h : heap) (b : g_base) (f : closure St) (s : St)
    : outcome (heap * St * bool) :=
  n <- t_number_of_elements (gb_layout b) ;;
  g_for_each_loop b f (N.to_nat n) 0 (h, s).

(** [matmul] for real scalars: matrix_multiply.rs:189-236. [stride] is called six times by the code; it
    is a function of the layout. *)
Definition g_matmul (kern : kernel T) (h : heap) (alpha : T) (a b : g_base) (beta : T) (c : g_base)
    : outcome heap :=
  dim1 <- t_dim (gb_layout a) ;;
  dim2 <- t_dim (gb_layout b) ;;
  dim3 <- t_dim (gb_layout c) ;;
  _ <- assert_ (matmul_dims_ok dim1 dim2 dim3) ;;
  sa <- t_stride (gb_layout a) ;;
  sb <- t_stride (gb_layout b) ;;
  sc <- t_stride (gb_layout c) ;;
  pa <- d_get_pointer (gb_data a) ;;
  pb <- d_get_pointer (gb_data b) ;;
  pc <- d_get_pointer (gb_data c) ;;
  gemm kern (fst dim1) (snd dim1) (snd dim2) alpha
    pa (as_isize (fst sa)) (as_isize (snd sa))
    pb (as_isize (fst sb)) (as_isize (snd sb))
    beta pc (as_isize (fst sc)) (as_isize (snd sc)) h.

(** The default methods [get_slice] and [get_slice_mut] of the container traits:
    data_container.rs:23-39, 53-76. *)
Definition g_get_slice (c : C) (first last : N) : outcome region :=
  _ <- assert_ (first <? last) ;;
  n <- d_number_of_elements c ;;
  _ <- assert_ (last <=? n) ;;
  p <- d_get_pointer c ;;
  q <- ptr_add p first ;;
  from_raw_parts q (last - first).

End Generic.
Arguments impl T L : clear implicits.
Arguments g_base L C : clear implicits.

(** The crate's own implementations: Layouts.v and Memory.v. *)
#[export] Instance crate_layouts (m : mode) : LayoutTraits layout base_kind := {
  t_stride := stride;
  t_dim l := Ok (dim l);
  t_number_of_elements := number_of_elements m;
  t_convert_1d_2d := convert_1d_2d m;
  t_convert_2d_1d := convert_2d_1d m;
  t_convert_1d_raw := convert_1d_raw m;
  t_convert_2d_raw := convert_2d_raw m;
  t_index_layout l := Ok (index_layout l);
  t_index_type := index_kind;
  t_from_dimension := from_dimension
}.

#[export] Instance crate_containers {T : Type} : ContainerTraits T container := {
  d_get_unchecked := container_get_unchecked;
  d_get_pointer c := Ok (container_get_pointer c);
  d_number_of_elements c := Ok (container_number_of_elements c);
  d_get_unchecked_mut := container_get_unchecked_mut;
  holds c := c
}.

(** The crate's own matrices as implementations. *)
Fixpoint of_matrix {T : Type} {SC : HScalar T} (m : mode) (x : matrix T) : impl T layout :=
  match x with
  | MBase b => of_base (LT := crate_layouts m) (mkGBase (bm_data b) (bm_layout b))
  | MRef x => g_ref (of_matrix m x)
  | MRefMut x => g_ref (of_matrix m x)
  | MScalarMult x s => g_scalar_mult (of_matrix m x) s
  | MAddition x y l =>
      {| i_layout := l;
         i_get_unchecked h row col :=
           v <- i_get_unchecked (of_matrix m x) h row col ;;
           w <- i_get_unchecked (of_matrix m y) h row col ;; Ok (sadd v w);
         i_get1d_unchecked h index :=
           v <- i_get1d_unchecked (of_matrix m x) h index ;;
           w <- i_get1d_unchecked (of_matrix m y) h index ;; Ok (sadd v w);
         i_get_unchecked_mut _ _ := UB;
         i_get1d_unchecked_mut _ := UB |}
  end.

(** A program with the user's own layout types beside the crate's; the index layout of
    an own layout may be one of the crate's. *)
Record own_layouts (U KU : Type) := mkOwn {
  o_stride : U -> outcome (N * N);
  o_dim : U -> outcome (N * N);
  o_number_of_elements : U -> outcome N;
  o_convert_1d_2d : U -> N -> outcome (N * N);
  o_convert_2d_1d : U -> N -> N -> outcome N;
  o_convert_1d_raw : U -> N -> outcome N;
  o_convert_2d_raw : U -> N -> N -> outcome N;
  o_index_layout : U -> outcome (layout + U);
  o_index_type : U -> base_kind + KU;
  o_from_dimension : KU -> N * N -> outcome U
}.

Definition program_layouts {U KU : Type} (m : mode) (o : own_layouts U KU)
    : LayoutTraits (layout + U) (base_kind + KU) := {|
  t_stride l := match l with inl l => stride l | inr u => o_stride _ _ o u end;
  t_dim l := match l with inl l => Ok (dim l) | inr u => o_dim _ _ o u end;
  t_number_of_elements l :=
    match l with inl l => number_of_elements m l | inr u => o_number_of_elements _ _ o u end;
  t_convert_1d_2d l := match l with inl l => convert_1d_2d m l | inr u => o_convert_1d_2d _ _ o u end;
  t_convert_2d_1d l := match l with inl l => convert_2d_1d m l | inr u => o_convert_2d_1d _ _ o u end;
  t_convert_1d_raw l := match l with inl l => convert_1d_raw m l | inr u => o_convert_1d_raw _ _ o u end;
  t_convert_2d_raw l := match l with inl l => convert_2d_raw m l | inr u => o_convert_2d_raw _ _ o u end;
  t_index_layout l := match l with inl l => Ok (inl (index_layout l)) | inr u => o_index_layout _ _ o u end;
  t_index_type l := match l with inl l => inl (index_kind l) | inr u => o_index_type _ _ o u end;
  t_from_dimension k d :=
    match k with
    | inl k => x <- from_dimension k d ;; Ok (inl x)
    | inr k => x <- o_from_dimension _ _ o k d ;; Ok (inr x)
    end
|}.
