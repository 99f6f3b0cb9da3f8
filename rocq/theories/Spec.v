(** * Spec: the vocabulary in which the properties are stated.

    Nothing here refers to how the code computes: positions, traversal orders,
    which layouts a property speaks about, sums, abstract matrices. *)

From Verif Require Import Machine Layouts.
Local Open Scope N_scope.

(** ** Positions and their orders *)

(** The position [p] = (row, column) lies in a matrix of dimension [d]. *)
Definition in_range (d p : N * N) : Prop := fst p < fst d /\ snd p < snd d.

(** [p] comes before [q] row by row, column by column. *)
Definition before_by_rows (p q : N * N) : Prop :=
  fst p < fst q \/ (fst p = fst q /\ snd p < snd q).
Definition before_by_columns (p q : N * N) : Prop :=
  snd p < snd q \/ (snd p = snd q /\ fst p < fst q).

(** The numbers below [n] and the positions satisfying [valid] are in
    one-to-one correspondence through [to_pos] and [to_num]. *)
Definition bijective (n : N) (valid : N * N -> Prop)
    (to_pos : N -> outcome (N * N)) (to_num : N * N -> outcome N) : Prop :=
  (forall i, i < n -> exists p, to_pos i = Ok p /\ valid p /\ to_num p = Ok i) /\
  (forall p, valid p -> exists i, to_num p = Ok i /\ i < n /\ to_pos i = Ok p).

(** [to_num] numbers the objects satisfying [valid] one-to-one by the numbers
    below [n]. *)
Definition numbering {A : Type} (n : N) (valid : A -> Prop) (to_num : A -> outcome N) : Prop :=
  (forall p, valid p -> exists i, to_num p = Ok i /\ i < n) /\
  (forall p q i, valid p -> valid q -> to_num p = Ok i -> to_num q = Ok i -> p = q) /\
  (forall i, i < n -> exists p, valid p /\ to_num p = Ok i).

(** [to_num] gives different objects satisfying [valid] different numbers. *)
Definition injective {A : Type} (valid : A -> Prop) (to_num : A -> outcome N) : Prop :=
  (forall p, valid p -> exists i, to_num p = Ok i) /\
  (forall p q i, valid p -> valid q -> to_num p = Ok i -> to_num q = Ok i -> p = q).

(** Increasing numbers give positions in the order [before]. *)
Definition ordered (n : N) (before : N * N -> N * N -> Prop) (to_pos : N -> outcome (N * N)) : Prop :=
  forall i j p q, i < j -> j < n -> to_pos i = Ok p -> to_pos j = Ok q -> before p q.

(** ** Which layouts a property speaks about *)

(** Layouts that go through the entries row by row, column by column. *)
Definition row_ordered (l : layout) : bool :=
  match l with RowMajor _ | ArbitraryStrideRowMajor _ _ => true | _ => false end.
Definition column_ordered (l : layout) : bool :=
  match l with ColumnMajor _ | ArbitraryStrideColumnMajor _ _ => true | _ => false end.

(** Vector layouts, by orientation. *)
Definition row_vector_like (l : layout) : bool :=
  match l with RowVector _ | ArbitraryStrideRowVector _ _ => true | _ => false end.
Definition column_vector_like (l : layout) : bool :=
  match l with ColumnVector _ | ArbitraryStrideColumnVector _ _ => true | _ => false end.

Definition upper_triangular_like (l : layout) : bool :=
  match l with UpperTriangular _ => true | _ => false end.

(** Layouts with user-chosen strides. *)
Definition has_strides (l : layout) : bool :=
  match l with
  | ArbitraryStrideRowMajor _ _ | ArbitraryStrideColumnMajor _ _
  | ArbitraryStrideRowVector _ _ | ArbitraryStrideColumnVector _ _ => true
  | _ => false
  end.

(** ** Entries of a layout *)

(** The number of entries as a mathematical number. *)
Definition entry_count (l : layout) : N :=
  match l with
  | UpperTriangular n => n * (n + 1) / 2
  | _ => fst (dim l) * snd (dim l)
  end.

(** The positions that are stored: all in range, for triangular matrices on or
    above the diagonal. *)
Definition stored (l : layout) (p : N * N) : Prop :=
  in_range (dim l) p /\ (upper_triangular_like l = true -> fst p <= snd p).

(** The layout is small enough that its entries could be allocated: its number
    of entries is at most [isize::MAX] (an item takes at least one byte). *)
Definition fits (l : layout) : Prop := entry_count l <= isize_max.

(** The element count can be computed in usize arithmetic ([dim * (dim + 1) / 2]
    in the triangular case; always so for vectors). *)
Definition small (l : layout) : Prop :=
  match l with
  | UpperTriangular n => n * (n + 1) < usize_mod
  | RowMajor d | ColumnMajor d
  | ArbitraryStrideRowMajor d _ | ArbitraryStrideColumnMajor d _ => fst d * snd d < usize_mod
  | _ => True
  end.

(** Layouts of matrices with user-chosen strides. *)
Definition strided_matrix (l : layout) : bool :=
  match l with
  | ArbitraryStrideRowMajor _ _ | ArbitraryStrideColumnMajor _ _ => true
  | _ => false
  end.

(** The strides a layout was given; dense layouts have those of their dimension. *)
Definition true_stride (l : layout) : N * N :=
  match l with
  | RowMajor d => (snd d, 1)
  | ColumnMajor d => (1, fst d)
  | RowVector _ | ColumnVector _ => (1, 1)
  | ArbitraryStrideRowMajor _ s | ArbitraryStrideColumnMajor _ s => s
  | ArbitraryStrideRowVector _ s => (1, s)
  | ArbitraryStrideColumnVector _ s => (s, 1)
  | UpperTriangular _ => (0, 0)
  end.

(** Every entry of a strided layout has an address that a usize can hold. *)
Definition addressable (l : layout) : Prop :=
  forall r c, in_range (dim l) (r, c) ->
    r * fst (true_stride l) + c * snd (true_stride l) < usize_mod.

(** Moving one row down (one column right) moves [fst s] ([snd s]) cells. *)
Definition stride_contract (raw : N -> N -> outcome N) (d s : N * N) : Prop :=
  (forall r c, in_range d (r, c) -> in_range d (r + 1, c) ->
     exists a, raw r c = Ok a /\ raw (r + 1) c = Ok (a + fst s)) /\
  (forall r c, in_range d (r, c) -> in_range d (r, c + 1) ->
     exists a, raw r c = Ok a /\ raw r (c + 1) = Ok (a + snd s)).

(** One stride reaches past the extent of the other dimension. *)
Definition separated (d s : N * N) : Prop :=
  (1 <= snd s /\ snd s * (snd d - 1) < fst s) \/ (1 <= fst s /\ fst s * (fst d - 1) < snd s).

(** The place of entry [p] in the storage of an upper triangular matrix: the
    last row first, each row from the diagonal on. *)
Definition triangular_place (n : N) (p : N * N) : N :=
  (n - fst p) * (n - fst p - 1) / 2 + (snd p - fst p).

(** The 1d number of entry [p]: row by row or column by column. *)
Definition number (l : layout) (p : N * N) : N :=
  match l with
  | UpperTriangular n => triangular_place n p
  | _ => if column_ordered l || column_vector_like l
         then snd p * fst (dim l) + fst p else fst p * snd (dim l) + snd p
  end.

(** The cell of entry [p], relative to the first cell of the matrix. *)
Definition cell (l : layout) (p : N * N) : N :=
  match l with
  | UpperTriangular n => triangular_place n p
  | _ => fst p * fst (true_stride l) + snd p * snd (true_stride l)
  end.
