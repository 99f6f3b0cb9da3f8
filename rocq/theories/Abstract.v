(** * Abstract: matrices as mathematical objects.

    The reference machine of C43. It has no memory, no layouts and no index
    arithmetic: a matrix is a dimension and a function from positions to values,
    and the entries of a table are windows on matrices and expressions over them.
    Results and typing are those of [Program]. *)

From Verif Require Import Machine Layouts Memory Matrix MatMul Spec MatrixSpec ExprSpec ProductSpec Program.
Local Open Scope N_scope.

Section Abstract.
Context {T : Type} {SC : HScalar T} {St : Type}.
Variable kern : kernel T.

(** A matrix; the kind fixes the order in which its entries are numbered. *)
Record amatrix := mkMatrix { a_dim : N * N; a_kind : base_kind; a_val : N * N -> T }.

(** A window on a matrix. What a Rust type shows of it: the order of its
    entries, the compile-time sizes, whether it is a block or the matrix itself,
    whether one can write to it. [w_room] is the number of items in the container
    of a matrix, which can be more than the matrix needs; blocks do not use it. *)
Record awindow := mkWindow {
  w_matrix : nat; w_origin : N * N; w_dim : N * N;
  w_kind : base_kind; w_sizes : size_id * size_id; w_view : bool; w_mut : bool; w_room : N
}.

Inductive handle :=
| HWindow (w : awindow)
| HRef (x : handle)
| HRefMut (x : handle)
| HScaled (s : T) (x : handle)
| HSum (x y : handle).

Record astate := mkAState { as_matrices : list amatrix; as_handles : list handle }.

Definition ainitial : astate := mkAState [] [].

Fixpoint hdim (x : handle) : N * N :=
  match x with
  | HWindow w => w_dim w
  | HRef x | HRefMut x | HScaled _ x | HSum x _ => hdim x
  end.
Fixpoint hkind (x : handle) : base_kind :=
  match x with
  | HWindow w => w_kind w
  | HRef x | HRefMut x | HScaled _ x | HSum x _ => hkind x
  end.
Fixpoint hsizes (x : handle) : size_id * size_id :=
  match x with
  | HWindow w => w_sizes w
  | HRef x | HRefMut x | HScaled _ x | HSum x _ => hsizes x
  end.

(** The value of a window, of a handle, at a position. *)
Definition wvalue (ms : list amatrix) (w : awindow) (p : N * N) : T :=
  match nth_error ms (w_matrix w) with
  | Some a => a_val a (shift (w_origin w) p)
  | None => szero
  end.
Fixpoint hvalue (ms : list amatrix) (x : handle) (p : N * N) : T :=
  match x with
  | HWindow w => wvalue ms w p
  | HRef x | HRefMut x => hvalue ms x p
  | HScaled s x => smul s (hvalue ms x p)
  | HSum x y => sadd (hvalue ms x p) (hvalue ms y p)
  end.

(** The window a write through a handle reaches. *)
Fixpoint hwindow (x : handle) : option awindow :=
  match x with
  | HWindow w => if w_mut w then Some w else None
  | HRefMut x => hwindow x
  | _ => None
  end.

(** Change the values of one matrix. *)
Fixpoint change (ms : list amatrix) (n : nat) (f : N * N -> T) : list amatrix :=
  match ms, n with
  | [], _ => []
  | a :: ms', O => mkMatrix (a_dim a) (a_kind a) f :: ms'
  | a :: ms', S n' => a :: change ms' n' f
  end.

Definition pos_eqb (p q : N * N) : bool := (fst p =? fst q) && (snd p =? snd q).
Definition in_rangeb (d p : N * N) : bool := (fst p <? fst d) && (snd p <? snd d).

(** The positions with an entry: all in range; in an upper triangular matrix those
    on or above the diagonal. *)
Definition held (k : base_kind) (d p : N * N) : Prop :=
  in_range d p /\ (k = KUpperTriangular -> fst p <= snd p).
Definition heldb (k : base_kind) (d p : N * N) : bool :=
  in_rangeb d p && match k with KUpperTriangular => fst p <=? snd p | _ => true end.

(** Write one entry of a window. *)
Definition put (ms : list amatrix) (w : awindow) (p : N * N) (v : T) : list amatrix :=
  match nth_error ms (w_matrix w) with
  | Some a => change ms (w_matrix w)
                (fun q => if pos_eqb q (shift (w_origin w) p) then v else a_val a q)
  | None => ms
  end.

(** Write all entries of a window at once. *)
Definition put_all (ms : list amatrix) (w : awindow) (f : N * N -> T) : list amatrix :=
  match nth_error ms (w_matrix w) with
  | Some a =>
      let o := w_origin w in
      change ms (w_matrix w) (fun q =>
        if (fst o <=? fst q) && (snd o <=? snd q) &&
           in_rangeb (w_dim w) (fst q - fst o, snd q - snd o)
        then f (fst q - fst o, snd q - snd o) else a_val a q)
  | None => ms
  end.

(** The number of entries, and the position of the entry number [i]. An upper
    triangular matrix is numbered from its last row up, so that the rows have 1, 2,
    3... entries and the entry number [i] is in row [t] from below for the largest
    [t] with [t * (t + 1) / 2 <= i]. *)
Definition count (k : base_kind) (d : N * N) : N :=
  match k with
  | KUpperTriangular => fst d * (fst d + 1) / 2
  | _ => fst d * snd d
  end.
Definition position (k : base_kind) (d : N * N) (i : N) : N * N :=
  match k with
  | KColumnMajor => (i mod fst d, i / fst d)
  | KRowVector => (0, i)
  | KColumnVector => (i, 0)
  | KRowMajor => (i / snd d, i mod snd d)
  | KUpperTriangular =>
      let t := (N.sqrt (8 * i + 1) - 1) / 2 in
      let row := fst d - 1 - t in (row, row + (i - t * (t + 1) / 2))
  end.
Definition positions (k : base_kind) (d : N * N) : list (N * N) :=
  map (fun i => position k d (N.of_nat i)) (seq 0 (N.to_nat (count k d))).

(** A closure visits entries until it panics. *)
Fixpoint avisit (f : closure (T := T) St) (ms : list amatrix) (w : awindow) (s : St)
    (ps : list (N * N)) : list amatrix * St * bool :=
  match ps with
  | [] => (ms, s, false)
  | p :: ps' =>
      let '(s', v, panicked) := f s (wvalue ms w p) in
      if panicked : bool then (put ms w p v, s', true) else avisit f (put ms w p v) w s' ps'
  end.

(** The entry (i, j) of alpha A B + beta C, as the kernel computes it; the shape
    tells it the sizes and no strides. *)
Definition aproduct (alpha : T) (da db : N * N) (A B : N * N -> T) (beta : T) (C : N * N -> T)
    (p : N * N) : T :=
  kern (mkShape (fst da) (snd da) (snd db) (0, 0)%Z (0, 0)%Z (0, 0)%Z) (fst p) (snd p) alpha
    (row_and_column (snd da) (fun i l => A (i, l)) (fun l j => B (l, j)) (fst p) (snd p)) beta (C p).

(** ** One call *)

Definition skip (st : astate) : astate * result T St := (st, RSkipped).
Definition panic (st : astate) : astate * result T St := (st, RPanicked).

(** A new matrix in a container with [room] items; a new handle. *)
Definition new_matrix_in (st : astate) (d : N * N) (k : base_kind) (s : size_id * size_id) (room : N)
    (f : N * N -> T) : astate * result T St :=
  (mkAState (as_matrices st ++ [mkMatrix d k f])
     (as_handles st ++ [HWindow (mkWindow (length (as_matrices st)) (0, 0) d k s false true room)]), RNew).
Definition new_matrix (st : astate) (d : N * N) (k : base_kind) (s : size_id * size_id) (f : N * N -> T)
    : astate * result T St := new_matrix_in st d k s (count k d) f.
Definition new_handles (st : astate) (xs : list handle) : astate * result T St :=
  (mkAState (as_matrices st) (as_handles st ++ xs), RNew).
Definition changed (st : astate) (ms : list amatrix) : astate * result T St :=
  (mkAState ms (as_handles st), RDone).

(** The only limit of the machine: a matrix has to fit into memory. *)
Definition allocate (st : astate) (d : N * N) (k : base_kind) (s : size_id * size_id) (f : N * N -> T)
    : astate * result T St :=
  if count k d * Npos ssize <=? isize_max then new_matrix st d k s f else panic st.

Definition ahandle (st : astate) (x : nat) : option handle := nth_error (as_handles st) x.
Definition awindow_of (st : astate) (x : nat) : option awindow :=
  match ahandle st x with Some (HWindow w) => Some w | _ => None end.
Definition awindow_mut (st : astate) (x : nat) : option awindow :=
  match awindow_of st x with Some w => if w_mut w then Some w else None | None => None end.

Definition on {A : Type} (st : astate) (x : option A) (k : A -> astate * result T St)
    : astate * result T St :=
  match x with Some a => k a | None => skip st end.
Definition provided (st : astate) (b : bool) (r : astate * result T St) : astate * result T St :=
  if b then r else skip st.
Definition demand (st : astate) (b : bool) (r : astate * result T St) : astate * result T St :=
  if b then r else panic st.

Definition block_of (w : awindow) (mut : bool) (tl d : N * N) : handle :=
  HWindow (mkWindow (w_matrix w) (shift (w_origin w) tl) d (w_kind w) (Dynamic, Dynamic) true mut 0).
Definition passed_as (p : passed) (x : handle) : handle :=
  match p with ByValue => x | ByReference => HRef x end.
Definition has_blocks (w : awindow) : bool :=
  is_dynamic (w_sizes w) &&
  match w_kind w with KRowMajor | KColumnMajor => true | _ => false end.
Definition triangular (k : base_kind) : bool := kind_eqb k KUpperTriangular.
Definition products_typed (a b c : awindow) : bool :=
  negb (triangular (w_kind a)) && negb (triangular (w_kind b)) && negb (triangular (w_kind c)) &&
  existsb (fun t => let '(r1, c1, s2, s3) := t in
             sizes_eqb (w_sizes a) (r1, c1) && sizes_eqb (w_sizes b) s2 && sizes_eqb (w_sizes c) s3)
    matmul_sizes.
Definition compatibleb (a b c : N * N) : bool :=
  (snd a =? fst b) && (fst c =? fst a) && (snd c =? snd b).

Definition dots_typed (shape : dot_shape) (a b : awindow) : bool :=
  negb (triangular (w_kind a)) && negb (triangular (w_kind b)) &&
  match shape with
  | MatrixMatrix => is_dynamic (w_sizes a) && is_dynamic (w_sizes b)
  | RowMatrix => sizes_eqb (w_sizes a) (Fixed1, Dynamic) && is_dynamic (w_sizes b)
  | MatrixColumn => is_dynamic (w_sizes a) && sizes_eqb (w_sizes b) (Dynamic, Fixed1)
  end.
Definition dot_kind (shape : dot_shape) : base_kind :=
  match shape with MatrixMatrix => KRowMajor | RowMatrix => KRowVector | MatrixColumn => KColumnVector end.
Definition dot_sizes (shape : dot_shape) : size_id * size_id :=
  match shape with
  | MatrixMatrix => (Dynamic, Dynamic) | RowMatrix => (Fixed1, Dynamic) | MatrixColumn => (Dynamic, Fixed1)
  end.
Definition dot_fits (shape : dot_shape) (d : N * N) : bool :=
  match shape with MatrixMatrix => true | RowMatrix => fst d =? 1 | MatrixColumn => snd d =? 1 end.

(** The dimensions a matrix of this kind can have. *)
Definition kind_fits (k : base_kind) (d : N * N) : bool :=
  match k with
  | KRowVector => fst d =? 1
  | KColumnVector => snd d =? 1
  | KUpperTriangular => fst d =? snd d
  | _ => true
  end.

(** A slice of the items [first] to [last] - 1 of the container, and its item [i]. *)
Definition slice_fits (w : awindow) (first last i : N) : bool :=
  (first <=? last) && (last <=? w_room w) && (i <? last - first).

Definition astep (st : astate) (o : call T St) : astate * result T St :=
  let ms := as_matrices st in
  let zero := fun _ : N * N => szero in
  match o with
  | CZeros k rows cols =>
      demand st (kind_fits k (rows, cols)) (allocate st (rows, cols) k (Dynamic, Dynamic) zero)
  | CZerosFixed rs cs k =>
      provided st (is_fixed_instance rs cs k) (new_matrix st (size_N rs, size_N cs) k (rs, cs) zero)
  | CZerosFixedVector rs cs k n =>
      provided st (is_fixed_vector_instance rs cs k n)
        (new_matrix st (size_N rs, size_N cs) k (rs, cs) zero)
  | CRowZeros n => allocate st (1, n) KRowVector (Fixed1, Dynamic) zero
  | CColumnZeros n => allocate st (n, 1) KColumnVector (Dynamic, Fixed1) zero
  | CRowZerosDim rows cols =>
      demand st (rows =? 1) (allocate st (rows, cols) KRowVector (Fixed1, Dynamic) zero)
  | CColumnZerosDim rows cols =>
      demand st (cols =? 1) (allocate st (rows, cols) KColumnVector (Dynamic, Fixed1) zero)
  | CFromVector rs cs n l =>
      demand st ((n * Npos ssize <=? isize_max) && (count (index_kind l) (dim l) <=? n))
        (new_matrix_in st (dim l) (index_kind l) (rs, cs) n zero)
  | CFromArray rs cs n l =>
      provided st (n * Npos ssize <=? isize_max)
        (demand st (count (index_kind l) (dim l) <=? n)
           (new_matrix_in st (dim l) (index_kind l) (rs, cs) n zero))
  | CSliceRead x first last i =>
      on st (awindow_of st x) (fun w =>
        demand st (slice_fits w first last i)
          (st, RItem (wvalue ms w (position (w_kind w) (w_dim w) (first + i)))))
  | CSliceWrite x first last i v =>
      on st (awindow_mut st x) (fun w =>
        demand st (slice_fits w first last i)
          (changed st (put ms w (position (w_kind w) (w_dim w) (first + i)) v)))
  | CGet x r c | CGetUnchecked x r c =>
      on st (ahandle st x) (fun y =>
        demand st (heldb (hkind y) (hdim y) (r, c)) (st, RItem (hvalue ms y (r, c))))
  | CGet1d x i | CGet1dUnchecked x i =>
      on st (ahandle st x) (fun y =>
        demand st (i <? count (hkind y) (hdim y)) (st, RItem (hvalue ms y (position (hkind y) (hdim y) i))))
  | CSet x r c v | CSetUnchecked x r c v =>
      on st (ahandle st x) (fun y => on st (hwindow y) (fun w =>
        demand st (heldb (w_kind w) (w_dim w) (r, c)) (changed st (put ms w (r, c) v))))
  | CSet1d x i v | CSet1dUnchecked x i v =>
      on st (ahandle st x) (fun y => on st (hwindow y) (fun w =>
        demand st (i <? count (w_kind w) (w_dim w)) (changed st (put ms w (position (w_kind w) (w_dim w) i) v))))
  | CDim x => on st (ahandle st x) (fun y => (st, RDim (hdim y)))
  | CLength x =>
      on st (ahandle st x) (fun y =>
        match hsizes y with
        | (Fixed1, Dynamic) | (Dynamic, Fixed1) => (st, RLength (fst (hdim y) * snd (hdim y)))
        | _ => skip st
        end)
  | CBlock mut x tl d =>
      on st (if mut then awindow_mut st x else awindow_of st x) (fun w =>
        provided st (has_blocks w)
          (demand st ((fst tl + fst d <=? fst (w_dim w)) && (snd tl + snd d <=? snd (w_dim w)))
             (new_handles st [block_of w mut tl d])))
  | CSplit x at_ =>
      on st (awindow_mut st x) (fun w =>
        provided st (is_dynamic (w_sizes w) && kind_eqb (w_kind w) KRowMajor && negb (w_view w))
          (demand st ((1 <=? fst at_) && (fst at_ <? fst (w_dim w)) &&
                      (1 <=? snd at_) && (snd at_ <? snd (w_dim w)))
             (new_handles st (map (fun k => block_of w true (quarter_origin at_ k) (quarter_dim (w_dim w) at_ k))
                                  [Q0; Q1; Q2; Q3]))))
  | CFromRef x => on st (ahandle st x) (fun y => new_handles st [HRef y])
  | CRefMut x => on st (ahandle st x) (fun y => new_handles st [HRefMut y])
  | CScalarTimes s p x | CTimesScalar p x s =>
      on st (ahandle st x) (fun y => new_handles st [HScaled s (passed_as p y)])
  | CPlus p q x y =>
      on st (ahandle st x) (fun u => on st (ahandle st y) (fun v =>
        provided st (kind_eqb (hkind u) (hkind v) && sizes_eqb (hsizes u) (hsizes v))
          (demand st (pos_eqb (hdim u) (hdim v))
             (new_handles st [HSum (passed_as p u) (passed_as q v)]))))
  | CEval x =>
      on st (ahandle st x) (fun y =>
        provided st (is_dynamic (hsizes y))
          (allocate st (hdim y) (hkind y) (Dynamic, Dynamic) (hvalue ms y)))
  | CForEach x f s =>
      on st (awindow_mut st x) (fun w =>
        let '(ms', s', panicked) := avisit f ms w s (positions (w_kind w) (w_dim w)) in
        (mkAState ms' (as_handles st), RLoop s' panicked))
  | CFill x random_scalar s =>
      on st (awindow_mut st x) (fun w =>
        let '(ms', s', panicked) :=
          avisit (fun g _ => let '(v, g') := random_scalar g in (g', v, false))
            ms w s (positions (w_kind w) (w_dim w)) in
        (mkAState ms' (as_handles st), RLoop s' panicked))
  | CMatmul alpha a b beta c =>
      on st (awindow_of st a) (fun a => on st (awindow_of st b) (fun b => on st (awindow_mut st c) (fun c =>
        provided st (products_typed a b c)
          (demand st (compatibleb (w_dim a) (w_dim b) (w_dim c))
             (changed st (put_all ms c
                (aproduct alpha (w_dim a) (w_dim b) (wvalue ms a) (wvalue ms b) beta (wvalue ms c))))))))
  | CDot shape a b =>
      on st (awindow_of st a) (fun a => on st (awindow_of st b) (fun b =>
        let d := (fst (w_dim a), snd (w_dim b)) in
        provided st (dots_typed shape a b)
          (demand st ((snd (w_dim a) =? fst (w_dim b)) && dot_fits shape d)
             (allocate st d (dot_kind shape) (dot_sizes shape)
                (aproduct sone (w_dim a) (w_dim b) (wvalue ms a) (wvalue ms b) szero zero)))))
  | CFromSlice _ _ _ _ _ _ _ | CFromPointer _ _ _ _ _ | CFromPointerStrided _ _ _ _ _ _ => skip st
  end.

Fixpoint arun (st : astate) (os : list (call T St)) : astate * list (result T St) :=
  match os with
  | [] => (st, [])
  | o :: os' =>
      let '(st1, r) := astep st o in
      let '(st2, rs) := arun st1 os' in (st2, r :: rs)
  end.

(** ** The programs the refinement holds for *)

(** The entries of the window follow each other in its matrix: it is the matrix
    itself, or a single row (column), or has full width (height). *)
Definition compact (ms : list amatrix) (w : awindow) : Prop :=
  w_view w = false \/
  forall a, nth_error ms (w_matrix w) = Some a ->
    match w_kind w with
    | KColumnMajor => snd (w_dim w) = 1 \/ fst (w_dim w) = fst (a_dim a)
    | _ => fst (w_dim w) = 1 \/ snd (w_dim w) = snd (a_dim a)
    end.

(** A block of dimension [d] of the window is where one expects it: the window
    is the matrix itself, or as wide (high), or the block is a single row
    (column). *)
Definition block_in_place (ms : list amatrix) (w : awindow) (d : N * N) : Prop :=
  w_view w = false \/
  forall a, nth_error ms (w_matrix w) = Some a ->
    match w_kind w with
    | KColumnMajor => snd d = 1 \/ fst (w_dim w) = fst (a_dim a)
    | _ => fst d = 1 \/ snd (w_dim w) = snd (a_dim a)
    end.

(** No position of a matrix is in both windows. *)
Definition apart (u w : awindow) : Prop :=
  forall p q, in_range (w_dim u) p -> in_range (w_dim w) q ->
    w_matrix u = w_matrix w -> shift (w_origin u) p <> shift (w_origin w) q.

(** The sizes in the type of a matrix agree with its layout as far as anything
    depends on them. *)
Definition well_typed (rs cs : size_id) (l : layout) : Prop :=
  (rs = Fixed1 -> fst (dim l) = 1) /\ (cs = Fixed1 -> snd (dim l) = 1) /\
  ((rs, cs) = (Dynamic, Dynamic) -> index_kind l <> KColumnVector).

(** The slice belongs to a matrix, not to a block, and the item is one of its entries
    if the slice exists. *)
Definition slice_in_matrix (w : awindow) (first last i : N) : Prop :=
  w_view w = false /\ (slice_fits w first last i = true -> first + i < count (w_kind w) (w_dim w)).

Definition in_scope (st : astate) (o : call T St) : Prop :=
  match o with
  | CZeros k _ _ => k <> KColumnVector
  | CFromVector rs cs _ l | CFromArray rs cs _ l => has_strides l = false /\ well_typed rs cs l
  | CFromSlice _ _ _ _ _ _ _ | CFromPointer _ _ _ _ _ | CFromPointerStrided _ _ _ _ _ _ => False
  | CSliceRead x first last i | CSliceWrite x first last i _ =>
      forall w, awindow_of st x = Some w -> slice_in_matrix w first last i
  | CGetUnchecked x r c | CSetUnchecked x r c _ =>
      forall y, ahandle st x = Some y -> held (hkind y) (hdim y) (r, c)
  | CGet1dUnchecked x i | CSet1dUnchecked x i _ =>
      forall y, ahandle st x = Some y -> i < count (hkind y) (hdim y)
  | CBlock _ x tl d =>
      nonempty d /\
      forall w, awindow_of st x = Some w -> block_in_place (as_matrices st) w d
  | CMatmul _ a b _ c =>
      forall u v w, awindow_of st a = Some u -> awindow_of st b = Some v -> awindow_of st c = Some w ->
        products_typed u v w = true ->
        compact (as_matrices st) u /\ compact (as_matrices st) v /\ compact (as_matrices st) w /\
        apart u w /\ apart v w
  | CDot shape a b =>
      forall u v, awindow_of st a = Some u -> awindow_of st b = Some v ->
        dots_typed shape u v = true ->
        compact (as_matrices st) u /\ compact (as_matrices st) v
  | _ => True
  end.

Fixpoint history_in_scope (st : astate) (os : list (call T St)) : Prop :=
  match os with
  | [] => True
  | o :: os' => in_scope st o /\ history_in_scope (fst (astep st o)) os'
  end.

(** A matrix in memory and an abstract one: the same dimension and values. *)
Definition represents (h : @heap T) (ms : list amatrix) (x : matrix T) (y : handle) : Prop :=
  dim (mat_layout x) = hdim y /\ index_kind (mat_layout x) = hkind y /\
  forall p, held (hkind y) (hdim y) p -> entry h x p = Some (hvalue ms y p).

Definition same_tables (st : state T) (ast : astate) : Prop :=
  Forall2 (represents (st_heap st) (as_matrices ast)) (st_mats st) (as_handles ast).

End Abstract.
