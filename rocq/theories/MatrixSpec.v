(** * MatrixSpec: the vocabulary of the properties about matrices in memory.

    Again nothing here says how the code computes: it says which cell of the
    heap an entry of a matrix is ([Spec.cell]), what the value of a lazy
    expression is, and when a matrix is sound. *)

From Verif Require Import Machine Layouts Memory Matrix Spec.
Local Open Scope N_scope.

Section MatrixSpec.
Context {T : Type} {SC : HScalar T}.
Notation heap := (@heap T).

(** ** Memory *)

(** The range lies inside an allocation of the heap. *)
Definition region_ok (h : heap) (r : region) : Prop :=
  exists l, nth_error h (r_alloc r) = Some l /\ r_lo r + r_len r <= N.of_nat (length l).

(** A Rust slice: a range of at most [isize::MAX] items of an allocation. *)
Definition slice_ok (h : heap) (r : region) : Prop := region_ok h r /\ r_len r <= isize_max.

(** [h'] has all allocations of [h], of the same sizes, and maybe more. *)
Definition extends (h h' : heap) : Prop :=
  forall a l, nth_error h a = Some l -> exists l', nth_error h' a = Some l' /\ length l' = length l.

(** A cell: an allocation and an index into it. *)
Definition cell_of_region (r : region) (i : N) : nat * N := (r_alloc r, r_lo r + i).

(** The place that an access at the true offset [a] reaches: offsets that are
    no [usize] panic with overflow checks and wrap without. *)
Definition reached (m : mode) (a : N) : option N :=
  if a <? usize_mod then Some a
  else match m with Checked => None | Wrapping => Some (a mod usize_mod) end.

(** Outside the cells satisfying [P] nothing changed; no allocation appeared
    or disappeared. *)
Definition changes_only (P : nat * N -> Prop) (h h' : heap) : Prop :=
  length h' = length h /\ extends h h' /\
  forall a i, ~ P (a, i) -> hget h' a i = hget h a i.

(** [h'] is [h] with one cell overwritten. *)
Definition one_cell_written (h h' : heap) (a : nat) (i : N) (v : T) : Prop :=
  changes_only (fun q => q = (a, i)) h h' /\ hget h' a i = Some v.

(** [h'] is [h] plus new allocations. *)
Definition only_allocates (h h' : heap) : Prop :=
  forall a l, nth_error h a = Some l -> nth_error h' a = Some l.

(** ** Matrices *)

(** The cell of the heap an entry of a base matrix lives in. *)
Definition entry_cell (b : base_matrix) (p : N * N) : nat * N :=
  cell_of_region (c_region (bm_data b)) (cell (bm_layout b) p).

(** A sound base matrix: its container is a slice of the heap, its element count
    can be computed and every entry has its cell in the container. *)
Definition base_valid (h : heap) (b : base_matrix) : Prop :=
  slice_ok h (c_region (bm_data b)) /\ small (bm_layout b) /\
  forall p, stored (bm_layout b) p -> cell (bm_layout b) p < r_len (c_region (bm_data b)).

(** A sound expression: sound leaves; by typing and [Addition::new] the operands
    of a sum have the same index order and dimension. *)
Fixpoint valid (h : heap) (x : matrix T) : Prop :=
  match x with
  | MBase b => base_valid h b
  | MRef x => valid h x
  | MRefMut x => valid h x
  | MScalarMult x _ => valid h x
  | MAddition x y l =>
      valid h x /\ valid h y /\ dim (mat_layout x) = dim (mat_layout y) /\
      index_kind (mat_layout x) = index_kind (mat_layout y) /\ l = index_layout (mat_layout x)
  end.

(** The value of the expression at a position: the algebraic expression applied
    to the entries of the leaves. *)
Fixpoint value (entry : base_matrix -> N * N -> option T) (x : matrix T) (p : N * N) : option T :=
  match x with
  | MBase b => entry b p
  | MRef x => value entry x p
  | MRefMut x => value entry x p
  | MScalarMult x s => option_map (smul s) (value entry x p)
  | MAddition x y _ =>
      match value entry x p, value entry y p with
      | Some v, Some w => Some (sadd v w)
      | _, _ => None
      end
  end.

(** The entry of a base matrix, as found in memory. *)
Definition base_entry (h : heap) (b : base_matrix) (p : N * N) : option T :=
  hget h (fst (entry_cell b p)) (snd (entry_cell b p)).

(** The entry of an expression. *)
Definition entry (h : heap) (x : matrix T) (p : N * N) : option T := value (base_entry h) x p.

(** The base matrix a write through [x] reaches; [None] if [x] is read-only. *)
Fixpoint writes_to (x : matrix T) : option base_matrix :=
  match x with
  | MBase b => if container_is_mut (bm_data b) then Some b else None
  | MRefMut x => writes_to x
  | _ => None
  end.

(** Different entries live in different cells. *)
Definition distinct_cells (l : layout) : Prop :=
  forall p q, stored l p -> stored l q -> cell l p = cell l q -> p = q.

(** Layouts for which that is so. *)
Definition no_aliasing (l : layout) : Prop :=
  has_strides l = true -> separated (dim l) (true_stride l).

(** [b] is a new matrix of zeros in memory that did not exist before; all
    existing memory is unchanged. *)
Definition fresh_zeros (h h' : heap) (b : base_matrix) : Prop :=
  only_allocates h h' /\ base_valid h' b /\
  (length h <= r_alloc (c_region (bm_data b)))%nat /\ container_is_mut (bm_data b) = true /\
  forall p, stored (bm_layout b) p -> base_entry h' b p = Some szero.

(** Every sound matrix of [h] has the same entries in [h']. *)
Definition keeps_matrices (h h' : heap) : Prop :=
  forall x, valid h x -> valid h' x /\ forall p, entry h' x p = entry h x p.

(** Whether an operation panics, returns, or is undefined. *)
Definition panics {A : Type} (o : outcome A) : Prop := o = Panic.
Definition returns {A : Type} (o : outcome A) : Prop := exists a, o = Ok a.

(** [o] returns the item [e], which exists. *)
Definition returns_entry (o : outcome T) (e : option T) : Prop := exists v, o = Ok v /\ e = Some v.

(** ** Blocks *)

(** The block of dimension [d] at [tl] has an entry; it lies in a matrix of
    dimension [D]. *)
Definition nonempty (d : N * N) : Prop := 1 <= fst d /\ 1 <= snd d.
Definition inside (D tl d : N * N) : Prop :=
  fst tl + fst d <= fst D /\ snd tl + snd d <= snd D.

(** The position [p] of a block at [tl], seen from the parent. *)
Definition shift (tl p : N * N) : N * N := (fst tl + fst p, snd tl + snd p).

(** Dense row-major or column-major matrices. *)
Definition dense_matrix (l : layout) : bool :=
  match l with RowMajor _ | ColumnMajor _ => true | _ => false end.

(** [b] is the window of dimension [d] at [tl] on the matrix [a]: the same cells
    of the heap, walked through in the same order. *)
Definition window (a b : base_matrix) (tl d : N * N) : Prop :=
  dim (bm_layout b) = d /\ index_kind (bm_layout b) = index_kind (bm_layout a) /\
  forall p, in_range d p -> entry_cell b p = entry_cell a (shift tl p).

(** Two ranges of memory without a common cell. *)
Definition disjoint (r1 r2 : region) : Prop :=
  forall i j, i < r_len r1 -> j < r_len r2 -> cell_of_region r1 i <> cell_of_region r2 j.

(** All cells of [r1] belong to [r2]. *)
Definition within (r1 r2 : region) : Prop :=
  r_alloc r1 = r_alloc r2 /\ r_lo r2 <= r_lo r1 /\ r_lo r1 + r_len r1 <= r_lo r2 + r_len r2.

(** The first, second, third, fourth of four. *)
Inductive quarter := Q0 | Q1 | Q2 | Q3.
Definition pick {A : Type} (four : A * A * A * A) (k : quarter) : A :=
  let '(a, b, c, d) := four in
  match k with Q0 => a | Q1 => b | Q2 => c | Q3 => d end.

(** Dimension and origin of the four blocks a matrix of dimension [D] is split
    into at [s]: |0|1| above |2|3|. *)
Definition quarter_dim (D s : N * N) (k : quarter) : N * N :=
  match k with
  | Q0 => s
  | Q1 => (fst s, snd D - snd s)
  | Q2 => (fst D - fst s, snd s)
  | Q3 => (fst D - fst s, snd D - snd s)
  end.
Definition quarter_origin (s : N * N) (k : quarter) : N * N :=
  match k with Q0 => (0, 0) | Q1 => (0, snd s) | Q2 => (fst s, 0) | Q3 => s end.

(** The split point is strictly inside. *)
Definition interior (D s : N * N) : Prop :=
  1 <= fst s /\ fst s < fst D /\ 1 <= snd s /\ snd s < snd D.

End MatrixSpec.

(** ** Histories of writes to one matrix *)

Inductive write (T : Type) := Write2 (r c : N) (v : T) | Write1 (i : N) (v : T).
Arguments Write2 {T} r c v.
Arguments Write1 {T} i v.

Section Writes.
Context {T : Type} {SC : HScalar T}.

(** What a write leaves at position [p], if it is a write to [p]. *)
Definition written_at (l : layout) (p : N * N) (w : write T) : option T :=
  match w with
  | Write2 r c v => if (fst p =? r) && (snd p =? c) then Some v else None
  | Write1 i v => if number l p =? i then Some v else None
  end.

(** The value most recently written to [p]; [ws] is in order of time. *)
Fixpoint last_write (l : layout) (ws : list (write T)) (p : N * N) : option T :=
  match ws with
  | [] => None
  | w :: ws' =>
      match last_write l ws' p with
      | Some v => Some v
      | None => written_at l p w
      end
  end.

(** One write statement [*x.get_mut(r, c) = v] or [*x.get1d_mut(i) = v] whose
    panic, if any, is caught. *)
Definition attempt (m : mode) (x : matrix T) (h : @heap T) (w : write T) : outcome (@heap T) :=
  match match w with
        | Write2 r c v => set m h x r c v
        | Write1 i v => set1d m h x i v
        end with
  | Panic => Ok h
  | o => o
  end.

(** A history of such statements. *)
Fixpoint attempt_all (m : mode) (x : matrix T) (h : @heap T) (ws : list (write T)) : outcome (@heap T) :=
  match ws with
  | [] => Ok h
  | w :: ws' => h' <- attempt m x h w ;; attempt_all m x h' ws'
  end.

(** No bounds-checked access to [b] leaves the memory of its container. *)
Definition no_access_ub (m : mode) (h : @heap T) (b : base_matrix) : Prop :=
  forall r col i v,
    get m h (MBase b) r col <> UB /\ get1d m h (MBase b) i <> UB /\
    (container_is_mut (bm_data b) = true ->
       get_mut m (@MBase T b) r col <> UB /\ get1d_mut m (@MBase T b) i <> UB /\
       set m h (MBase b) r col v <> UB /\ set1d m h (MBase b) i v <> UB).

(** A history of write statements to the four blocks of a split. *)
Fixpoint attempt_quarters (m : mode) (four : base_matrix * base_matrix * base_matrix * base_matrix)
    (h : @heap T) (ws : list (quarter * write T)) : outcome (@heap T) :=
  match ws with
  | [] => Ok h
  | (k, w) :: ws' => h' <- attempt m (MBase (pick four k)) h w ;; attempt_quarters m four h' ws'
  end.

(** The writes to one of the blocks. *)
Definition quarter_eqb (k k' : quarter) : bool :=
  match k, k' with Q0, Q0 | Q1, Q1 | Q2, Q2 | Q3, Q3 => true | _, _ => false end.
Definition writes_of (k : quarter) (ws : list (quarter * write T)) : list (write T) :=
  map snd (filter (fun kw => quarter_eqb k (fst kw)) ws).

End Writes.
