(** * HistorySpec: the vocabulary of the properties about histories of calls. *)

From Verif Require Import Machine Layouts Memory Matrix MatMul Spec MatrixSpec ExprSpec ProductSpec Program.
Local Open Scope N_scope.

Section HistorySpec.
Context {T : Type} {SC : HScalar T} {St : Type}.
Variable kern : kernel T.

(** The call returned; no panic. *)
Definition completed (r : result T St) : Prop :=
  match r with RPanicked => False | RLoop _ panicked => panicked = false | _ => True end.

(** Safe calls as in C38: no [unsafe] function, no matrix with user-chosen
    strides; blocks are not empty. *)
Definition safe_call (o : call T St) : Prop :=
  match o with
  | CFromVector _ _ _ l | CFromArray _ _ _ l | CFromSlice _ _ _ _ _ _ l => has_strides l = false
  | CFromPointer _ _ _ _ _ | CFromPointerStrided _ _ _ _ _ _ => False
  | CGetUnchecked _ _ _ | CGet1dUnchecked _ _ | CSetUnchecked _ _ _ _ | CSet1dUnchecked _ _ _ => False
  | CBlock _ _ _ d => nonempty d
  | _ => True
  end.

(** Strides of rows (columns) that do not overlap: those of dense matrices and of
    blocks of them. Vectors may have any stride. *)
Definition row_strides (l : layout) : Prop :=
  match l with
  | ArbitraryStrideRowMajor d s => snd s = 1 /\ snd d <= fst s
  | ArbitraryStrideColumnMajor d s => fst s = 1 /\ fst d <= snd s
  | _ => True
  end.

(** A layout with strides over [n] cells. *)
Definition strides_fit (l : layout) (n : N) : Prop :=
  row_strides l /\ (has_strides l = true -> forall p, stored l p -> cell l p < n).

(** The number of cells of the container of a base matrix. *)
Definition room (b : base_matrix) : N := r_len (c_region (bm_data b)).

(** A call within its contract: also unsafe functions, and layouts with strides,
    are admitted if what they are told about the memory is true. *)
Definition within_contract (st : state T) (o : call T St) : Prop :=
  match o with
  | CFromVector _ _ n l | CFromArray _ _ n l => strides_fit l n
  | CFromSlice _ _ first last _ _ l => strides_fit l (last - first)
  | CFromPointer _ _ x off d =>
      forall b, lookup_base st x = Some b -> off + fst d * snd d <= room b
  | CFromPointerStrided _ o x off d s =>
      nonempty d /\ row_strides (strided_layout o d s) /\
      forall b, lookup_base st x = Some b ->
        forall p, in_range d p -> off + (fst p * fst s + snd p * snd s) < room b
  | CGetUnchecked x r c | CSetUnchecked x r c _ =>
      forall y, lookup st x = Some y -> stored (mat_layout y) (r, c)
  | CGet1dUnchecked x i | CSet1dUnchecked x i _ =>
      forall y, lookup st x = Some y -> i < entry_count (mat_layout y)
  | CBlock _ x tl d =>
      nonempty d \/ forall b, lookup_base st x = Some b -> cell (bm_layout b) tl <= room b
  | _ => True
  end.

Fixpoint history_within_contract (m : mode) (st : state T) (os : list (call T St)) : Prop :=
  match os with
  | [] => True
  | o :: os' =>
      within_contract st o /\
      forall st' r, step kern m st o = Ok (st', r) -> history_within_contract m st' os'
  end.

(** The allocation of a base matrix. *)
Definition allocation (b : base_matrix) : nat := r_alloc (c_region (bm_data b)).

(** The expression [x] has entries in the allocation [a]. *)
Fixpoint lives_in (a : nat) (x : matrix T) : Prop :=
  match x with
  | MBase b => allocation b = a
  | MRef x | MRefMut x | MScalarMult x _ => lives_in a x
  | MAddition x y _ => lives_in a x \/ lives_in a y
  end.

(** The cell [q] belongs to the container of a leaf of [x]. *)
Fixpoint occupies (x : matrix T) (q : nat * N) : Prop :=
  match x with
  | MBase b =>
      let r := c_region (bm_data b) in
      fst q = r_alloc r /\ r_lo r <= snd q /\ snd q < r_lo r + r_len r
  | MRef x | MRefMut x | MScalarMult x _ => occupies x q
  | MAddition x y _ => occupies x q \/ occupies y q
  end.

(** The matrix a call writes to, if any: the target of an assignment, of a loop
    or of matmul. *)
Definition target (st : state T) (o : call T St) : option (matrix T) :=
  match o with
  | CSet x _ _ _ | CSet1d x _ _ | CSetUnchecked x _ _ _ | CSet1dUnchecked x _ _
  | CSliceWrite x _ _ _ _ | CForEach x _ _ | CFill x _ _ => nth_error (st_mats st) x
  | CMatmul _ _ _ _ c => nth_error (st_mats st) c
  | _ => None
  end.

(** The call writes to a matrix in the allocation [a]. *)
Definition writes_in (st : state T) (o : call T St) (a : nat) : Prop :=
  exists x, target st o = Some x /\ lives_in a x.

(** The call writes to a matrix whose container has the cell [q]. *)
Definition writes_over (st : state T) (o : call T St) (q : nat * N) : Prop :=
  exists x, target st o = Some x /\ occupies x q.

(** Some call of the history does. *)
Fixpoint history_writes_in (m : mode) (st : state T) (os : list (call T St)) (a : nat) : Prop :=
  match os with
  | [] => False
  | o :: os' =>
      writes_in st o a \/
      match step kern m st o with Ok (st', _) => history_writes_in m st' os' a | _ => False end
  end.

Fixpoint history_writes_over (m : mode) (st : state T) (os : list (call T St)) (q : nat * N) : Prop :=
  match os with
  | [] => False
  | o :: os' =>
      writes_over st o q \/
      match step kern m st o with Ok (st', _) => history_writes_over m st' os' q | _ => False end
  end.

(** [x] reads the same in both heaps. *)
Definition reads_same (h h' : @heap T) (x : matrix T) : Prop :=
  forall m, (forall r c, get m h' x r c = get m h x r c) /\
            (forall i, get1d m h' x i = get1d m h x i).

(** No computation of a size or of a position in the call exceeds 2^64 - 1: the number of
    entries of a new matrix can be computed and the end of a requested block, blocks are
    not empty, and matrices are split at interior points only. *)
Definition no_wrap_call (st : state T) (o : call T St) : Prop :=
  match o with
  | CZeros KUpperTriangular n _ => n * (n + 1) < usize_mod
  | CZeros (KRowMajor | KColumnMajor) rows cols => rows * cols < usize_mod
  | CFromVector _ _ _ l | CFromArray _ _ _ l | CFromSlice _ _ _ _ _ _ l => small l
  | CBlock _ _ tl d => fst tl + fst d < usize_mod /\ snd tl + snd d < usize_mod /\ nonempty d
  | CSplit x s => forall b, lookup_base st x = Some b -> interior (dim (bm_layout b)) s
  | CDot MatrixMatrix x y => forall a b, lookup_base st x = Some a -> lookup_base st y = Some b ->
      fst (dim (bm_layout a)) * snd (dim (bm_layout b)) < usize_mod
  | _ => True
  end.

Fixpoint no_wrap_history (m : mode) (st : state T) (os : list (call T St)) : Prop :=
  match os with
  | [] => True
  | o :: os' =>
      no_wrap_call st o /\
      forall st' r, step kern m st o = Ok (st', r) -> no_wrap_history m st' os'
  end.

(** Safe calls, with blocks of any size. *)
Definition safe_or_block (o : call T St) : Prop :=
  match o with CBlock _ _ _ _ => True | _ => safe_call o end.

(** A request for an empty block that lies inside of the matrix but starts beyond the
    end of its container. The numbers a program can write are below 2^64; if the position
    of the start is not, the computation of the position panics. *)
Definition overshoots (st : state T) (o : call T St) : Prop :=
  match o with
  | CBlock mut x tl d => exists b,
      lookup_block st mut x = Some b /\ base_sizes b = (Dynamic, Dynamic) /\ block_order (bm_layout b) <> None /\
      ~ nonempty d /\ inside (dim (bm_layout b)) tl d /\ fst tl + fst d < usize_mod /\ snd tl + snd d < usize_mod /\
      room b < cell (bm_layout b) tl /\ cell (bm_layout b) tl < usize_mod
  | _ => False
  end.

(** Some call of the history is such a request. *)
Fixpoint history_overshoots (m : mode) (st : state T) (os : list (call T St)) : Prop :=
  match os with
  | [] => False
  | o :: os' =>
      overshoots st o \/
      match step kern m st o with Ok (st', _) => history_overshoots m st' os' | _ => False end
  end.

End HistorySpec.
