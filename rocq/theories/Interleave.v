(** * Interleave: threads that take turns inside of calls.

    In [Threads] a call of a thread is one step. Here every access to the memory is
    a step. The methods of the library appear a second time, as programs: trees of
    single loads, stores and allocations in the order of the Rust code. Running a
    program without interruption gives what the functions in [Matrix], [MatMul] and
    [Program] give; this is proved (C60_sequential), so the two models of a method
    cannot differ. A machine runs the programs of many threads step by step, in an
    arbitrary order.

    Simplified: the load or store of an item is one step (no tearing), memory is
    sequentially consistent (without races, C60_races, Rust guarantees both), and an
    access outside of the range of a pointer is undefined behaviour at once. *)

From Verif Require Import Machine Layouts Memory Matrix MatMul Spec MatrixSpec ExprSpec ProductSpec Program HistorySpec Borrow Threads.
Local Open Scope N_scope.

Section Interleave.
Context {T : Type} {SC : HScalar T} {St : Type}.
Notation heap := (@heap T).

(** ** Programs *)

Inductive prog (A : Type) : Type :=
| Stop (o : outcome A)                       (* return, panic or undefined behaviour *)
| Load (p : place) (k : T -> prog A)
| Store (p : place) (v : T) (k : prog A)
| Alloc (l : list T) (k : region -> prog A).
Arguments Stop {A} o.
Arguments Load {A} p k.
Arguments Store {A} p v k.
Arguments Alloc {A} l k.

(** A program, then another. *)
Fixpoint pbind {A B : Type} (c : prog A) (f : A -> prog B) : prog B :=
  match c with
  | Stop (Ok a) => f a
  | Stop Panic => Stop Panic
  | Stop UB => Stop UB
  | Load p k => Load p (fun v => pbind (k v) f)
  | Store p v k => Store p v (pbind k f)
  | Alloc l k => Alloc l (fun r => pbind (k r) f)
  end.

(** Without interruption. *)
Fixpoint complete {A : Type} (c : prog A) (h : heap) : outcome (heap * A) :=
  match c with
  | Stop o => a <- o ;; Ok (h, a)
  | Load p k => v <- place_read h p ;; complete (k v) h
  | Store p v k => h' <- place_write h p v ;; complete k h'
  | Alloc l k => let '(h', r) := alloc h l in complete (k r) h'
  end.

Notation ret a := (Stop (Ok a)).
Notation pure o := (Stop o).
Notation "x <~ e ; k" := (pbind e (fun x => k)) (at level 61, e at next level, right associativity).
Notation "' p <~ e ; k" := (pbind e (fun p => k)) (at level 61, p pattern, e at next level, right associativity).

(** ** The methods as programs *)

(** Memory.v [region_read]. *)
Definition p_region_read (r : region) (i : N) : prog T :=
  if i <? r_len r then Load (mkPlace (r_alloc r) (r_lo r + i)) (fun v => ret v) else Stop UB.

(** [*place = v]. *)
Definition p_write (p : place) (v : T) : prog unit := Store p v (ret tt).

(** [VectorContainer::new], [ArrayContainer::new]: data_container.rs:102-106, 110-114. *)
Definition p_vector_container_new (nelems : N) : prog container :=
  if nelems * Npos ssize <=? isize_max then
    Alloc (repeat szero (N.to_nat nelems)) (fun r => ret (mkContainer VectorContainer r))
  else Stop Panic.
Definition p_array_container_new (n : N) : prog container :=
  Alloc (repeat szero (N.to_nat n)) (fun r => ret (mkContainer ArrayContainer r)).

(** [get_unchecked], [get1d_unchecked]: base_matrix.rs:131-139 with data_container.rs:140-142,
    166-168, 192-194, 208-210. *)
Definition p_base_get_unchecked (m : mode) (b : base_matrix) (row col : N) : prog T :=
  i <~ pure (convert_2d_raw m (bm_layout b) row col) ; p_region_read (c_region (bm_data b)) i.
Definition p_base_get1d_unchecked (m : mode) (b : base_matrix) (index : N) : prog T :=
  i <~ pure (convert_1d_raw m (bm_layout b) index) ; p_region_read (c_region (bm_data b)) i.

(** The same of any matrix: common_impl.rs:44-51, matrix_ref.rs:124-131, scalar_mult.rs:96-103,
    addition.rs:124-135. *)
Fixpoint p_get_unchecked (m : mode) (x : matrix T) (row col : N) : prog T :=
  match x with
  | MBase b => p_base_get_unchecked m b row col
  | MRef x => p_get_unchecked m x row col
  | MRefMut x => p_get_unchecked m x row col
  | MScalarMult x s => v <~ p_get_unchecked m x row col ; ret (smul s v)
  | MAddition x y _ =>
      v <~ p_get_unchecked m x row col ; w <~ p_get_unchecked m y row col ; ret (sadd v w)
  end.
Fixpoint p_get1d_unchecked (m : mode) (x : matrix T) (index : N) : prog T :=
  match x with
  | MBase b => p_base_get1d_unchecked m b index
  | MRef x => p_get1d_unchecked m x index
  | MRefMut x => p_get1d_unchecked m x index
  | MScalarMult x s => v <~ p_get1d_unchecked m x index ; ret (smul s v)
  | MAddition x y _ =>
      v <~ p_get1d_unchecked m x index ; w <~ p_get1d_unchecked m y index ; ret (sadd v w)
  end.

(** [get], [get1d]: random_access.rs:101-109. *)
Definition p_get (m : mode) (x : matrix T) (row col : N) : prog T :=
  _ <~ pure (assert_dimension row col (dim (mat_layout x))) ; p_get_unchecked m x row col.
Definition p_get1d (m : mode) (x : matrix T) (elem : N) : prog T :=
  n <~ pure (number_of_elements m (mat_layout x)) ;
  _ <~ pure (assert_dimension1d elem n) ; p_get1d_unchecked m x elem.

(** [zeros_from_dim], [zeros_from_length]: constructors.rs:24-29, 40-42, 74-128. *)
Definition p_zeros_from_dim (m : mode) (k : base_kind) (rows cols : N) : prog base_matrix :=
  l <~ pure (from_dimension k (rows, cols)) ;
  n <~ pure (number_of_elements m l) ;
  c <~ p_vector_container_new n ;
  l' <~ pure (from_dimension k (rows, cols)) ;
  pure (from_data m Dynamic Dynamic c l').
Definition p_zeros_fixed (m : mode) (k : base_kind) (rs cs : size_id) : prog base_matrix :=
  c <~ p_array_container_new (size_N rs * size_N cs) ;
  l <~ pure (from_dimension k (size_N rs, size_N cs)) ;
  pure (from_data m rs cs c l).
Definition p_zeros_fixed_vector (m : mode) (rs cs : size_id) (k : base_kind) (n : N) : prog base_matrix :=
  c <~ p_array_container_new n ;
  pure (match from_length k n with Some l => from_data m rs cs c l | None => UB end).
Definition p_row_zeros (m : mode) (n : N) : prog base_matrix :=
  c <~ p_vector_container_new n ; pure (from_data m Fixed1 Dynamic c (row_vector_from_length n)).
Definition p_row_zeros_dim (m : mode) (rows cols : N) : prog base_matrix :=
  _ <~ pure (assert_ (rows =? 1)) ; p_row_zeros m cols.
Definition p_column_zeros (m : mode) (n : N) : prog base_matrix :=
  c <~ p_vector_container_new n ; pure (from_data m Dynamic Fixed1 c (column_vector_from_length n)).
Definition p_column_zeros_dim (m : mode) (rows cols : N) : prog base_matrix :=
  _ <~ pure (assert_ (cols =? 1)) ; p_column_zeros m rows.

(** The loop [for index in 0..n]. *)
Fixpoint p_loop (n : nat) (i : N) (body : N -> prog unit) : prog unit :=
  match n with
  | O => ret tt
  | S n' => _ <~ body i ; p_loop n' (i + 1) body
  end.

(** [eval]: common_impl.rs:79-89. *)
Definition p_eval (m : mode) (x : matrix T) : prog base_matrix :=
  let d := dim (mat_layout x) in
  result <~ p_zeros_from_dim m (index_kind (mat_layout x)) (fst d) (snd d) ;
  n <~ pure (number_of_elements m (mat_layout x)) ;
  _ <~ p_loop (N.to_nat n) 0 (fun index =>
         v <~ p_get1d_unchecked m x index ;
         p <~ pure (base_get1d_unchecked_mut m result index) ;
         p_write p v) ;
  ret result.

(** [f(self.get1d_unchecked_mut(index))] in the loop of [for_each]: base_methods.rs:23-27.
    The closure loads the item and stores its new value. *)
Definition p_call_closure {S : Type} (m : mode) (b : base_matrix) (f : closure (T := T) S) (index : N) (s : S)
    : prog (S * bool) :=
  match base_get1d_unchecked_mut m b index with
  | Panic => ret (s, true)
  | UB => Stop UB
  | Ok p => Load p (fun v => let '(s', v', panicked) := f s v in Store p v' (ret (s', panicked)))
  end.
Fixpoint p_for_each_loop {S : Type} (m : mode) (b : base_matrix) (f : closure (T := T) S) (n : nat) (index : N) (s : S)
    : prog (S * bool) :=
  match n with
  | O => ret (s, false)
  | S n' =>
      '(s', panicked) <~ p_call_closure m b f index s ;
      if panicked : bool then ret (s', true) else p_for_each_loop m b f n' (index + 1) s'
  end.
Definition p_for_each {S : Type} (m : mode) (b : base_matrix) (f : closure (T := T) S) (s : S) : prog (S * bool) :=
  n <~ pure (number_of_elements m (bm_layout b)) ; p_for_each_loop m b f (N.to_nat n) 0 s.

(** [fill_from_rand_standard_normal]: random.rs:22-25. *)
Definition p_fill {G : Type} (m : mode) (b : base_matrix) (random_scalar : G -> T * G) (g : G) : prog (G * bool) :=
  p_for_each m b (fun g _ => let '(v, g') := random_scalar g in (g', v, false)) g.

(** [slice[i]], [slice[i] = v] with the bounds check of Rust slices. *)
Definition p_slice_read (r : region) (i : N) : prog T :=
  _ <~ pure (assert_ (i <? r_len r)) ; p_region_read r i.
Definition p_slice_write (r : region) (i : N) (v : T) : prog unit :=
  _ <~ pure (assert_ (i <? r_len r)) ; p <~ pure (region_place r i) ; p_write p v.

(** The external gemm routines as programs: which loads and stores they make, and in which
    order, is left open. The arguments are those of [gemm] in MatMul.v. *)
Record gemm_args := mkArgs {
  ga_shape : gemm_shape; ga_alpha : T; ga_a : pointer; ga_b : pointer; ga_beta : T; ga_c : pointer
}.
Variable code : gemm_args -> prog unit.

(** [matmul]: matrix_multiply.rs:189-236, 272-324. *)
Definition matmul_args (alpha : T) (a b : base_matrix) (beta : T) (c : base_matrix) : outcome gemm_args :=
  let dim1 := dim (bm_layout a) in
  let dim2 := dim (bm_layout b) in
  let dim3 := dim (bm_layout c) in
  _ <- assert_ (matmul_dims_ok dim1 dim2 dim3) ;;
  sa <- stride (bm_layout a) ;;
  sb <- stride (bm_layout b) ;;
  sc <- stride (bm_layout c) ;;
  Ok (mkArgs (mkShape (fst dim1) (snd dim1) (snd dim2) (as_isize (fst sa), as_isize (snd sa))
                (as_isize (fst sb), as_isize (snd sb)) (as_isize (fst sc), as_isize (snd sc)))
        alpha (get_pointer a) (get_pointer b) beta (get_pointer c)).
Definition p_matmul (alpha : T) (a b : base_matrix) (beta : T) (c : base_matrix) : prog unit :=
  g <~ pure (matmul_args alpha a b beta c) ; code g.

(** [dot]: matrix_multiply.rs:75-89, 104-118, 138-152. *)
Definition p_dot (shape : dot_shape) (m : mode) (a b : base_matrix) : prog base_matrix :=
  let rows := fst (dim (bm_layout a)) in
  let cols := snd (dim (bm_layout b)) in
  res <~ match shape with
         | MatrixMatrix => p_zeros_from_dim m KRowMajor rows cols
         | RowMatrix => p_row_zeros_dim m rows cols
         | MatrixColumn => p_column_zeros_dim m rows cols
         end ;
  _ <~ p_matmul sone a b szero res ;
  ret res.

(** ** Calls *)

(** What a call returns: new matrices, and what the caller sees. *)
Definition ends_new (c : prog base_matrix) : prog (list (matrix T) * result T St) :=
  b <~ c ; ret ([MBase b], RNew).
Definition ends_item (c : prog T) : prog (list (matrix T) * result T St) := v <~ c ; ret ([], RItem v).
Definition ends_done (c : prog unit) : prog (list (matrix T) * result T St) := _ <~ c ; ret ([], RDone).
Definition ends_loop (c : prog (St * bool)) : prog (list (matrix T) * result T St) :=
  '(s, panicked) <~ c ; ret ([], RLoop s panicked).

(** The program of a call, for a thread with the table [ms]; [None] if no such method
    exists. See [exec] in Program.v. *)
Definition program (m : mode) (ms : list (matrix T)) (o : call T St) : option (prog (list (matrix T) * result T St)) :=
  let st := mkState [] ms in
  match o with
  | CZeros k rows cols => Some (ends_new (p_zeros_from_dim m k rows cols))
  | CZerosFixed rs cs k => when (is_fixed_instance rs cs k) (Some (ends_new (p_zeros_fixed m k rs cs)))
  | CZerosFixedVector rs cs k n =>
      when (is_fixed_vector_instance rs cs k n) (Some (ends_new (p_zeros_fixed_vector m rs cs k n)))
  | CRowZeros n => Some (ends_new (p_row_zeros m n))
  | CColumnZeros n => Some (ends_new (p_column_zeros m n))
  | CRowZerosDim rows cols => Some (ends_new (p_row_zeros_dim m rows cols))
  | CColumnZerosDim rows cols => Some (ends_new (p_column_zeros_dim m rows cols))
  | CFromVector rs cs n l =>
      Some (ends_new (c <~ p_vector_container_new n ; pure (from_data m rs cs c l)))
  | CFromArray rs cs n l =>
      when (n * Npos ssize <=? isize_max)
        (Some (ends_new (c <~ p_array_container_new n ; pure (from_data m rs cs c l))))
  | CFromSlice mut x first last rs cs l =>
      typed (lookup_block st mut x) (fun b =>
        Some (ends_new (pure (r <- (if mut then get_slice_mut b first last else get_slice b first last) ;;
                              from_data m rs cs (slice_container mut r) l))))
  | CFromPointer mut o x off d =>
      typed (lookup_block st mut x) (fun b =>
        Some (ends_new (pure (p <- ptr_add (get_pointer b) off ;; from_pointer m mut o p d))))
  | CFromPointerStrided mut o x off d s =>
      typed (lookup_block st mut x) (fun b =>
        Some (ends_new (pure (p <- ptr_add (get_pointer b) off ;; from_pointer_strided m mut o p d s))))
  | CGet x r c => typed (lookup st x) (fun y => Some (ends_item (p_get m y r c)))
  | CGet1d x i => typed (lookup st x) (fun y => Some (ends_item (p_get1d m y i)))
  | CSet x r c v =>
      typed (lookup st x) (fun y => when (is_writable y)
        (Some (ends_done (p <~ pure (get_mut m y r c) ; p_write p v))))
  | CSet1d x i v =>
      typed (lookup st x) (fun y => when (is_writable y)
        (Some (ends_done (p <~ pure (get1d_mut m y i) ; p_write p v))))
  | CGetUnchecked x r c => typed (lookup st x) (fun y => Some (ends_item (p_get_unchecked m y r c)))
  | CGet1dUnchecked x i => typed (lookup st x) (fun y => Some (ends_item (p_get1d_unchecked m y i)))
  | CSetUnchecked x r c v =>
      typed (lookup st x) (fun y => when (is_writable y)
        (Some (ends_done (p <~ pure (get_unchecked_mut m y r c) ; p_write p v))))
  | CSet1dUnchecked x i v =>
      typed (lookup st x) (fun y => when (is_writable y)
        (Some (ends_done (p <~ pure (get1d_unchecked_mut m y i) ; p_write p v))))
  | CSliceRead x first last i =>
      typed (lookup_base st x) (fun b =>
        Some (ends_item (r <~ pure (get_slice b first last) ; p_slice_read r i)))
  | CSliceWrite x first last i v =>
      typed (lookup_mut st x) (fun b =>
        Some (ends_done (r <~ pure (get_slice_mut b first last) ; p_slice_write r i v)))
  | CDim x => typed (lookup st x) (fun y => Some (ret ([], RDim (mat_dim y))))
  | CLength x =>
      typed (lookup st x) (fun y => typed (mat_length y) (fun n => Some (ret ([], RLength n))))
  | CBlock mut x tl d =>
      typed (lookup_block st mut x) (fun b =>
        when (is_dynamic (base_sizes b)) (typed (block_order (bm_layout b)) (fun _ =>
          Some (ends_new (pure (block m mut b tl d))))))
  | CSplit x at_ =>
      typed (lookup_mut st x) (fun b =>
        when (is_dynamic (base_sizes b))
          (match bm_layout b with
           | RowMajor _ =>
               Some ('(b0, b1, b2, b3) <~ pure (split_in_four_mut m b at_) ;
                     ret ([MBase b0; MBase b1; MBase b2; MBase b3], RNew))
           | _ => None
           end))
  | CFromRef x => typed (lookup st x) (fun y => Some (ret ([from_ref y], RNew)))
  | CRefMut x => typed (lookup st x) (fun y => Some (ret ([MRefMut y], RNew)))
  | CScalarTimes s p x => typed (lookup st x) (fun y => Some (ret ([scalar_times s p y], RNew)))
  | CTimesScalar p x s => typed (lookup st x) (fun y => Some (ret ([times_scalar p y s], RNew)))
  | CPlus p q x y =>
      typed (lookup st x) (fun u => typed (lookup st y) (fun v =>
        when (kind_eqb (index_kind (mat_layout u)) (index_kind (mat_layout v)) &&
              sizes_eqb (mat_size u) (mat_size v))
          (Some (z <~ pure (plus p q u v) ; ret ([z], RNew)))))
  | CEval x =>
      typed (lookup st x) (fun y => when (is_dynamic (mat_size y)) (Some (ends_new (p_eval m y))))
  | CForEach x f s => typed (lookup_mut st x) (fun b => Some (ends_loop (p_for_each m b f s)))
  | CFill x random_scalar s =>
      typed (lookup_mut st x) (fun b => Some (ends_loop (p_fill m b random_scalar s)))
  | CMatmul alpha a b beta c =>
      typed (lookup_base st a) (fun a => typed (lookup_base st b) (fun b => typed (lookup_mut st c) (fun c =>
        when (matmul_typed a b c) (Some (ends_done (p_matmul alpha a b beta c))))))
  | CDot shape a b =>
      typed (lookup_base st a) (fun a => typed (lookup_base st b) (fun b =>
        when (dot_typed shape a b) (Some (ends_new (p_dot shape m a b)))))
  end.

(** ** The machine *)

(** A thread: its matrices, the memory that it allocated since the start, the calls it
    has yet to make, the call it is making (with what is left of its program, and the
    number of own allocations when it began) and what its calls returned. *)
Record thread := mkThread {
  t_table : list (matrix T);
  t_own : heap;
  t_left : list (call T St);
  t_now : option (call T St * nat * prog (list (matrix T) * result T St));
  t_done : list (result T St)
}.

(** The memory that existed at the start is common. A thread cannot reach what another one
    allocates later; so each numbers its own allocations behind the common ones. *)
Record machine := mkMachine { m_common : heap; m_thread : nat -> thread }.

(** The memory as the thread [k] sees it. *)
Definition memory (M : machine) (k : nat) : heap := m_common M ++ t_own (m_thread M k).

Definition set_thread (f : nat -> thread) (k : nat) (t : thread) : nat -> thread :=
  fun j => if Nat.eqb j k then t else f j.

(** The thread [k] now sees the memory [h] and is in the state [t]. *)
Definition update (M : machine) (k : nat) (h : heap) (table : list (matrix T)) (rest : list (call T St))
    (now : option (call T St * nat * prog (list (matrix T) * result T St))) (done : list (result T St)) : machine :=
  mkMachine (firstn (length (m_common M)) h)
    (set_thread (m_thread M) k (mkThread table (skipn (length (m_common M)) h) rest now done)).

(** One step of the thread [k]: it begins or ends a call, or makes one access. After a panic
    what the call allocated is gone (the values of the call are dropped). *)
Definition mstep (m : mode) (M : machine) (k : nat) : outcome machine :=
  let t := m_thread M k in
  let h := memory M k in
  match t_now t with
  | None =>
      match t_left t with
      | [] => Ok M
      | o :: rest =>
          match program m (t_table t) o with
          | None => Ok (update M k h (t_table t) rest None (t_done t ++ [RSkipped]))
          | Some c => Ok (update M k h (t_table t) rest (Some (o, length (t_own t), c)) (t_done t))
          end
      end
  | Some (o, n, c) =>
      match c with
      | Stop (Ok (new, r)) => Ok (update M k h (t_table t ++ new) (t_left t) None (t_done t ++ [r]))
      | Stop Panic =>
          Ok (update M k (firstn (length (m_common M) + n) h) (t_table t) (t_left t) None (t_done t ++ [RPanicked]))
      | Stop UB => UB
      | Load p c' =>
          v <- place_read h p ;; Ok (update M k h (t_table t) (t_left t) (Some (o, n, c' v)) (t_done t))
      | Store p v c' =>
          h' <- place_write h p v ;; Ok (update M k h' (t_table t) (t_left t) (Some (o, n, c')) (t_done t))
      | Alloc l c' =>
          let '(h', r) := alloc h l in
          Ok (update M k h' (t_table t) (t_left t) (Some (o, n, c' r)) (t_done t))
      end
  end.

(** A schedule: which thread makes the next step. *)
Fixpoint mrun (m : mode) (M : machine) (sched : list nat) : outcome machine :=
  match sched with
  | [] => Ok M
  | k :: sched' => M' <- mstep m M k ;; mrun m M' sched'
  end.

(** The threads of the pool [p] begin, each with its calls. *)
Definition launch (p : pool T) (calls : nat -> list (call T St)) : machine :=
  mkMachine (p_heap p) (fun k => mkThread (p_tabs p k) [] (calls k) None []).

(** ** The vocabulary of the properties *)

(** The call the thread is making. *)
Definition current (t : thread) : list (call T St) :=
  match t_now t with Some (o, _, _) => [o] | None => [] end.
Definition idle (t : thread) : Prop := t_now t = None.
Definition finished (t : thread) : Prop := t_now t = None /\ t_left t = [].

(** The access a thread is about to make: the cell, and whether it writes. *)
Definition next_access (t : thread) : option (nat * N * bool) :=
  match t_now t with
  | Some (_, _, Load p _) => Some (pl_alloc p, pl_index p, false)
  | Some (_, _, Store p _ _) => Some (pl_alloc p, pl_index p, true)
  | _ => None
  end.

(** Two threads are about to access the same cell of the common memory, and one of them writes. *)
Definition race (M : machine) : Prop :=
  exists j k a i w w', j <> k /\ (a < length (m_common M))%nat /\
    next_access (m_thread M j) = Some (a, i, w) /\ next_access (m_thread M k) = Some (a, i, w') /\
    (w = true \/ w' = true).

(** The cells of a [rows] x [cols] matrix at a pointer with strides. *)
Definition at_entry (p : pointer) (s : Z * Z) (rows cols : N) (q : nat * N) : Prop :=
  exists i j z, i < rows /\ j < cols /\ z = (Z.of_N (p_off p) + gemm_offset s i j)%Z /\ (0 <= z)%Z /\
    Z.to_N z < r_len (p_region p) /\ q = (r_alloc (p_region p), r_lo (p_region p) + Z.to_N z).
Definition a_cells (g : gemm_args) := at_entry (ga_a g) (g_sa (ga_shape g)) (g_m (ga_shape g)) (g_k (ga_shape g)).
Definition b_cells (g : gemm_args) := at_entry (ga_b g) (g_sb (ga_shape g)) (g_k (ga_shape g)) (g_n (ga_shape g)).
Definition c_cells (g : gemm_args) := at_entry (ga_c g) (g_sc (ga_shape g)) (g_m (ga_shape g)) (g_n (ga_shape g)).

(** All entries of C are in the range of its pointer. *)
Definition c_in_range (g : gemm_args) : Prop :=
  forall i j, i < g_m (ga_shape g) -> j < g_n (ga_shape g) ->
    (0 <= Z.of_N (p_off (ga_c g)) + gemm_offset (g_sc (ga_shape g)) i j < Z.of_N (r_len (p_region (ga_c g))))%Z.

(** No entry of C is an entry of A or B, or twice an entry of C: the order in which the
    entries of C are computed does not matter. *)
Definition plain_args (g : gemm_args) : Prop :=
  (forall q, c_cells g q -> ~ a_cells g q /\ ~ b_cells g q) /\
  (c_in_range g ->
   forall i j i' j', i < g_m (ga_shape g) -> j < g_n (ga_shape g) -> i' < g_m (ga_shape g) -> j' < g_n (ga_shape g) ->
     gemm_offset (g_sc (ga_shape g)) i j = gemm_offset (g_sc (ga_shape g)) i' j' -> i = i' /\ j = j').

(** All loads of a program are in [R], all stores in [W]; it never panics and never
    allocates. *)
Fixpoint only_accesses {A : Type} (R W : nat * N -> Prop) (c : prog A) : Prop :=
  match c with
  | Stop o => o <> Panic
  | Load p k => R (pl_alloc p, pl_index p) /\ forall v, only_accesses R W (k v)
  | Store p v k => W (pl_alloc p, pl_index p) /\ only_accesses R W k
  | Alloc l k => False
  end.

(** The gemm routine touches no cell but those of the entries of A, B and C, stores only to
    entries of C, and on plain arguments leaves what [gemm] in MatMul.v says. *)
Definition implements (kern : kernel T) : Prop :=
  forall g, only_accesses (fun q => a_cells g q \/ b_cells g q \/ c_cells g q) (c_cells g) (code g) /\
    (plain_args g -> forall h,
       complete (code g) h =
       (let sh := ga_shape g in
        h' <- gemm kern (g_m sh) (g_k sh) (g_n sh) (ga_alpha g) (ga_a g) (fst (g_sa sh)) (snd (g_sa sh))
                (ga_b g) (fst (g_sb sh)) (snd (g_sb sh)) (ga_beta g) (ga_c g) (fst (g_sc sh)) (snd (g_sc sh)) h ;;
        Ok (h', tt))).

(** The products that a thread asks for are plain. *)
Definition plain_call (st : state T) (o : call T St) : Prop :=
  match o with
  | CMatmul alpha a b beta c =>
      forall x y z g, lookup_base st a = Some x -> lookup_base st b = Some y -> lookup_mut st c = Some z ->
        matmul_args alpha x y beta z = Ok g -> plain_args g
  | _ => True
  end.
Fixpoint plain_history (kern : kernel T) (m : mode) (st : state T) (os : list (call T St)) : Prop :=
  match os with
  | [] => True
  | o :: os' => plain_call st o /\ forall st' r, step kern m st o = Ok (st', r) -> plain_history kern m st' os'
  end.

End Interleave.
Arguments prog T A : clear implicits.
Arguments gemm_args T : clear implicits.
Arguments thread T St : clear implicits.
Arguments machine T St : clear implicits.
Arguments Stop {T A} o.
Arguments Load {T A} p k.
Arguments Store {T A} p v k.
Arguments Alloc {T A} l k.

(** Gemm routines that compute C entry by entry as MatMul.v describes it, in any order. *)
Section Orders.
Context {T : Type}.

Definition p_ptr_read (p : pointer) (d : Z) : prog T T :=
  let z := (Z.of_N (p_off p) + d)%Z in
  if (0 <=? z)%Z then p_region_read (p_region p) (Z.to_N z) else Stop UB.
Definition p_ptr_write (p : pointer) (d : Z) (v : T) : prog T unit :=
  let z := (Z.of_N (p_off p) + d)%Z in
  if (0 <=? z)%Z then pbind (Stop (region_place (p_region p) (Z.to_N z))) (fun pl => p_write pl v) else Stop UB.
Fixpoint p_collect {A : Type} (n : nat) (i : N) (f : N -> prog T A) : prog T (list A) :=
  match n with
  | O => Stop (Ok [])
  | S n' => pbind (f i) (fun x => pbind (p_collect n' (i + 1) f) (fun xs => Stop (Ok (x :: xs))))
  end.

Definition p_gemm_entry (kern : kernel T) (g : gemm_args T) (i j : N) : prog T unit :=
  let sh := ga_shape g in
  pbind (p_collect (N.to_nat (g_k sh)) 0 (fun l =>
           pbind (p_ptr_read (ga_a g) (gemm_offset (g_sa sh) i l)) (fun x =>
           pbind (p_ptr_read (ga_b g) (gemm_offset (g_sb sh) l j)) (fun y => Stop (Ok (x, y)))))) (fun pairs =>
  pbind (p_ptr_read (ga_c g) (gemm_offset (g_sc sh) i j)) (fun old =>
  p_ptr_write (ga_c g) (gemm_offset (g_sc sh) i j) (kern sh i j (ga_alpha g) pairs (ga_beta g) old))).

(** The positions of a [rows] x [cols] matrix, row by row. *)
Definition positions (rows cols : N) : list (N * N) :=
  flat_map (fun i => map (fun j => (N.of_nat i, N.of_nat j)) (seq 0 (N.to_nat cols))) (seq 0 (N.to_nat rows)).

(** The entries of C one after the other, in the order of a list. *)
Fixpoint p_entries (kern : kernel T) (g : gemm_args T) (l : list (N * N)) : prog T unit :=
  match l with
  | [] => Stop (Ok tt)
  | (i, j) :: l' => pbind (p_gemm_entry kern g i j) (fun _ => p_entries kern g l')
  end.
Definition in_order (order : gemm_args T -> list (N * N)) (kern : kernel T) (g : gemm_args T) : prog T unit :=
  p_entries kern g (order g).

(** Row by row, as in MatMul.v. *)
Definition by_rows (kern : kernel T) : gemm_args T -> prog T unit :=
  in_order (fun g => positions (g_m (ga_shape g)) (g_n (ga_shape g))) kern.

End Orders.
