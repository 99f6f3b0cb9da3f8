(** * Program: histories of API calls.

    A program using the crate is modelled by a list of calls on a table of
    matrices. A call names its operands by their number in the table; matrices
    it returns are appended to the table. Calls that the Rust compiler rejects,
    because no method of that type exists, are skipped. Any matrix can be used
    at any time: this admits more programs than the borrow checker does. A panic
    is caught and leaves the table and the memory that existed before the call as
    they were (all panics come before the first write to such memory, except in
    for_each, which reports the memory it leaves). *)

From Verif Require Import Machine Layouts Memory Matrix MatMul ExprSpec ProductSpec.
Local Open Scope N_scope.

(** Equality of the types that stand for size and layout parameters. *)
Definition size_eqb (a b : size_id) : bool :=
  match a, b with
  | Fixed1, Fixed1 | Fixed2, Fixed2 | Fixed3, Fixed3 | Dynamic, Dynamic => true
  | _, _ => false
  end.
Definition sizes_eqb (a b : size_id * size_id) : bool :=
  size_eqb (fst a) (fst b) && size_eqb (snd a) (snd b).
Definition kind_eqb (a b : base_kind) : bool :=
  match a, b with
  | KRowMajor, KRowMajor | KColumnMajor, KColumnMajor | KRowVector, KRowVector
  | KColumnVector, KColumnVector | KUpperTriangular, KUpperTriangular => true
  | _, _ => false
  end.

Section Program.
Context {T : Type} {SC : HScalar T} {St : Type}.
Variable kern : kernel T.
Notation heap := (@heap T).

(** The memory and the table of matrices. *)
Record state := mkState { st_heap : heap; st_mats : list (matrix T) }.

Definition initial : state := mkState [] [].

(** The calls. [x], [y], [a], [b], [c] are numbers of matrices. *)
Inductive call :=
(* constructors, constructors.rs *)
| CZeros (k : base_kind) (rows cols : N)                        (* :74-80 *)
| CZerosFixed (rs cs : size_id) (k : base_kind)                 (* :24-29, 47-63 *)
| CZerosFixedVector (rs cs : size_id) (k : base_kind) (n : N)   (* :40-42, 65-68 *)
| CRowZeros (n : N)                                             (* :85-90 *)
| CColumnZeros (n : N)                                          (* :109-114 *)
| CRowZerosDim (rows cols : N)                                  (* :94-104 *)
| CColumnZerosDim (rows cols : N)                               (* :118-128 *)
| CFromVector (rs cs : size_id) (n : N) (l : layout)            (* matrix.rs:144-146 with VectorContainer::new(n) *)
| CFromArray (rs cs : size_id) (n : N) (l : layout)             (* the same with ArrayContainer::<_, n>::new() *)
| CFromSlice (mut : bool) (x : nat) (first last : N)
             (rs cs : size_id) (l : layout)                     (* the same with a slice of x *)
| CFromPointer (mut : bool) (o : order) (x : nat) (off : N) (d : N * N)           (* :171-178, 183-190, unsafe *)
| CFromPointerStrided (mut : bool) (o : order) (x : nat) (off : N) (d s : N * N)  (* :135-146, 151-162, unsafe *)
(* access, traits/random_access.rs *)
| CGet (x : nat) (r c : N)
| CGet1d (x : nat) (i : N)
| CSet (x : nat) (r c : N) (v : T)
| CSet1d (x : nat) (i : N) (v : T)
| CGetUnchecked (x : nat) (r c : N)                             (* unsafe *)
| CGet1dUnchecked (x : nat) (i : N)                             (* unsafe *)
| CSetUnchecked (x : nat) (r c : N) (v : T)                     (* unsafe *)
| CSet1dUnchecked (x : nat) (i : N) (v : T)                     (* unsafe *)
| CSliceRead (x : nat) (first last i : N)                       (* x.get_slice(first, last)[i] *)
| CSliceWrite (x : nat) (first last i : N) (v : T)              (* x.get_slice_mut(first, last)[i] = v *)
| CDim (x : nat)
| CLength (x : nat)
(* views and expressions *)
| CBlock (mut : bool) (x : nat) (tl d : N * N)
| CSplit (x : nat) (at_ : N * N)
| CFromRef (x : nat)
| CRefMut (x : nat)                                             (* MatrixRefMut::new, matrix_ref.rs:76-78 *)
| CScalarTimes (s : T) (p : passed) (x : nat)
| CTimesScalar (p : passed) (x : nat) (s : T)
| CPlus (p q : passed) (x y : nat)
(* computations *)
| CEval (x : nat)
| CForEach (x : nat) (f : closure (T := T) St) (s : St)
| CFill (x : nat) (random_scalar : St -> T * St) (s : St)
| CMatmul (alpha : T) (a b : nat) (beta : T) (c : nat)
| CDot (shape : dot_shape) (a b : nat).

(** What the caller sees. *)
Inductive result :=
| RSkipped                          (* no such method: not a program *)
| RPanicked
| RDone                             (* returned unit *)
| RNew                              (* returned matrices, now in the table *)
| RItem (v : T)
| RDim (d : N * N)
| RLength (n : N)
| RLoop (s : St) (panicked : bool). (* for_each: the final state of the closure *)

Definition lookup (st : state) (x : nat) : option (matrix T) := nth_error (st_mats st) x.

Definition lookup_base (st : state) (x : nat) : option base_matrix :=
  match lookup st x with Some (MBase b) => Some b | _ => None end.

(** Base matrices with a mutable container. *)
Definition lookup_mut (st : state) (x : nat) : option base_matrix :=
  match lookup_base st x with
  | Some b => if container_is_mut (bm_data b) then Some b else None
  | None => None
  end.

Definition lookup_block (st : state) (mut : bool) (x : nat) : option base_matrix :=
  if mut then lookup_mut st x else lookup_base st x.

Definition base_sizes (b : base_matrix) : size_id * size_id := (bm_rs b, bm_cs b).
Definition is_dynamic (s : size_id * size_id) : bool := sizes_eqb s (Dynamic, Dynamic).

(** Matrices that implement [RandomAccessMut] (random_access.rs:62-68, 111-121): base
    matrices in mutable containers and mutable references to such. *)
Fixpoint is_writable (x : matrix T) : bool :=
  match x with
  | MBase b => container_is_mut (bm_data b)
  | MRefMut x => is_writable x
  | _ => false
  end.

(** Typing: a value if the method exists. *)
Definition typed {A B : Type} (x : option A) (k : A -> option B) : option B :=
  match x with Some a => k a | None => None end.
Definition when {B : Type} (b : bool) (k : option B) : option B := if b then k else None.

(** The call returns one new matrix. *)
Definition new1 (st : state) (r : outcome (heap * base_matrix)) : outcome (state * result) :=
  '(h, b) <- r ;; Ok (mkState h (st_mats st ++ [MBase b]), RNew).
Definition new_view (st : state) (r : outcome base_matrix) : outcome (state * result) :=
  b <- r ;; Ok (mkState (st_heap st) (st_mats st ++ [MBase b]), RNew).
Definition new_expr (st : state) (r : outcome (matrix T)) : outcome (state * result) :=
  x <- r ;; Ok (mkState (st_heap st) (st_mats st ++ [x]), RNew).

(** The call returns an item, or writes the memory. *)
Definition item (st : state) (r : outcome T) : outcome (state * result) :=
  v <- r ;; Ok (st, RItem v).
Definition done (st : state) (r : outcome heap) : outcome (state * result) :=
  h <- r ;; Ok (mkState h (st_mats st), RDone).

(** A loop over a matrix, which may end in a panic. *)
Definition looped (st : state) (r : outcome (heap * St * bool)) : outcome (state * result) :=
  '(h, s, panicked) <- r ;; Ok (mkState h (st_mats st), RLoop s panicked).

(** The sizes for which the products exist: [matmul_sizes] (matrix_multiply.rs:342-349)
    and matrix_multiply.rs:61-156 for [dot]. *)
Definition matmul_typed (a b c : base_matrix) : bool :=
  strided_type (bm_layout a) && strided_type (bm_layout b) && strided_type (bm_layout c) &&
  existsb (fun t => let '(r1, c1, s2, s3) := t in
             sizes_eqb (base_sizes a) (r1, c1) && sizes_eqb (base_sizes b) s2 && sizes_eqb (base_sizes c) s3)
    matmul_sizes.
Definition dot_typed (shape : dot_shape) (a b : base_matrix) : bool :=
  strided_type (bm_layout a) && strided_type (bm_layout b) &&
  match shape with
  | MatrixMatrix => is_dynamic (base_sizes a) && is_dynamic (base_sizes b)
  | RowMatrix => sizes_eqb (base_sizes a) (Fixed1, Dynamic) && is_dynamic (base_sizes b)
  | MatrixColumn => is_dynamic (base_sizes a) && sizes_eqb (base_sizes b) (Dynamic, Fixed1)
  end.

(** The instances of the macros in constructors.rs:47-68. *)
Definition is_fixed_instance (rs cs : size_id) (k : base_kind) : bool :=
  existsb (fun t => let '(r, c, k') := t in size_eqb r rs && size_eqb c cs && kind_eqb k' k) fixed_instances.
Definition is_fixed_vector_instance (rs cs : size_id) (k : base_kind) (n : N) : bool :=
  existsb (fun t => let '(r, c, k', n') := t in
             size_eqb r rs && size_eqb c cs && kind_eqb k' k && (n' =? n)) fixed_vector_instances.

(** [slice[i]] with the bounds check of Rust slices. *)
Definition slice_read (h : heap) (r : region) (i : N) : outcome T :=
  _ <- assert_ (i <? r_len r) ;; region_read h r i.
Definition slice_write (h : heap) (r : region) (i : N) (v : T) : outcome heap :=
  _ <- assert_ (i <? r_len r) ;; p <- region_place r i ;; place_write h p v.

(** One call; [None] if no such method exists. *)
Definition exec (m : mode) (st : state) (o : call) : option (outcome (state * result)) :=
  let h := st_heap st in
  match o with
  | CZeros k rows cols => Some (new1 st (zeros_from_dim m h k rows cols))
  | CZerosFixed rs cs k => when (is_fixed_instance rs cs k) (Some (new1 st (zeros_fixed m h k rs cs)))
  | CZerosFixedVector rs cs k n =>
      when (is_fixed_vector_instance rs cs k n) (Some (new1 st (zeros_fixed_vector m h rs cs k n)))
  | CRowZeros n => Some (new1 st (row_vector_zeros_from_length m h n))
  | CColumnZeros n => Some (new1 st (column_vector_zeros_from_length m h n))
  | CRowZerosDim rows cols => Some (new1 st (row_vector_zeros_from_dim m h rows cols))
  | CColumnZerosDim rows cols => Some (new1 st (column_vector_zeros_from_dim m h rows cols))
  | CFromVector rs cs n l =>
      Some (new1 st ('(h', c) <- vector_container_new h n ;; b <- from_data m rs cs c l ;; Ok (h', b)))
  | CFromArray rs cs n l =>
      when (n * Npos ssize <=? isize_max)
        (Some (new1 st (let '(h', c) := array_container_new h n in
                        b <- from_data m rs cs c l ;; Ok (h', b))))
  | CFromSlice mut x first last rs cs l =>
      typed (lookup_block st mut x) (fun b =>
        Some (new_view st (r <- (if mut then get_slice_mut b first last else get_slice b first last) ;;
                           from_data m rs cs (slice_container mut r) l)))
  | CFromPointer mut o x off d =>
      typed (lookup_block st mut x) (fun b =>
        Some (new_view st (p <- ptr_add (get_pointer b) off ;; from_pointer m mut o p d)))
  | CFromPointerStrided mut o x off d s =>
      typed (lookup_block st mut x) (fun b =>
        Some (new_view st (p <- ptr_add (get_pointer b) off ;; from_pointer_strided m mut o p d s)))
  | CGet x r c => typed (lookup st x) (fun y => Some (item st (get m h y r c)))
  | CGet1d x i => typed (lookup st x) (fun y => Some (item st (get1d m h y i)))
  | CSet x r c v =>
      typed (lookup st x) (fun y => when (is_writable y) (Some (done st (set m h y r c v))))
  | CSet1d x i v =>
      typed (lookup st x) (fun y => when (is_writable y) (Some (done st (set1d m h y i v))))
  | CGetUnchecked x r c => typed (lookup st x) (fun y => Some (item st (get_unchecked m h y r c)))
  | CGet1dUnchecked x i => typed (lookup st x) (fun y => Some (item st (get1d_unchecked m h y i)))
  | CSetUnchecked x r c v =>
      typed (lookup st x) (fun y => when (is_writable y)
        (Some (done st (p <- get_unchecked_mut m y r c ;; place_write h p v))))
  | CSet1dUnchecked x i v =>
      typed (lookup st x) (fun y => when (is_writable y)
        (Some (done st (p <- get1d_unchecked_mut m y i ;; place_write h p v))))
  | CSliceRead x first last i =>
      typed (lookup_base st x) (fun b => Some (item st (r <- get_slice b first last ;; slice_read h r i)))
  | CSliceWrite x first last i v =>
      typed (lookup_mut st x) (fun b =>
        Some (done st (r <- get_slice_mut b first last ;; slice_write h r i v)))
  | CDim x => typed (lookup st x) (fun y => Some (Ok (st, RDim (mat_dim y))))
  | CLength x =>
      typed (lookup st x) (fun y => typed (mat_length y) (fun n => Some (Ok (st, RLength n))))
  | CBlock mut x tl d =>
      typed (lookup_block st mut x) (fun b =>
        when (is_dynamic (base_sizes b)) (typed (block_order (bm_layout b)) (fun _ =>
          Some (new_view st (block m mut b tl d)))))
  | CSplit x at_ =>
      typed (lookup_mut st x) (fun b =>
        when (is_dynamic (base_sizes b))
          (match bm_layout b with
           | RowMajor _ =>
               Some ('(b0, b1, b2, b3) <- split_in_four_mut m b at_ ;;
                     Ok (mkState h (st_mats st ++ [MBase b0; MBase b1; MBase b2; MBase b3]), RNew))
           | _ => None
           end))
  | CFromRef x => typed (lookup st x) (fun y => Some (new_expr st (Ok (from_ref y))))
  | CRefMut x => typed (lookup st x) (fun y => Some (new_expr st (Ok (MRefMut y))))
  | CScalarTimes s p x => typed (lookup st x) (fun y => Some (new_expr st (Ok (scalar_times s p y))))
  | CTimesScalar p x s => typed (lookup st x) (fun y => Some (new_expr st (Ok (times_scalar p y s))))
  | CPlus p q x y =>
      typed (lookup st x) (fun u => typed (lookup st y) (fun v =>
        when (kind_eqb (index_kind (mat_layout u)) (index_kind (mat_layout v)) &&
              sizes_eqb (mat_size u) (mat_size v))
          (Some (new_expr st (plus p q u v)))))
  | CEval x =>
      typed (lookup st x) (fun y => when (is_dynamic (mat_size y)) (Some (new1 st (eval m h y))))
  | CForEach x f s => typed (lookup_mut st x) (fun b => Some (looped st (for_each m h b f s)))
  | CFill x random_scalar s =>
      typed (lookup_mut st x) (fun b => Some (looped st (fill_from_rand m h b random_scalar s)))
  | CMatmul alpha a b beta c =>
      typed (lookup_base st a) (fun a => typed (lookup_base st b) (fun b => typed (lookup_mut st c) (fun c =>
        when (matmul_typed a b c) (Some (done st (matmul kern h alpha a b beta c))))))
  | CDot shape a b =>
      typed (lookup_base st a) (fun a => typed (lookup_base st b) (fun b =>
        when (dot_typed shape a b) (Some (new1 st (dot shape kern m h a b)))))
  end.

(** One call with panics caught. *)
Definition step (m : mode) (st : state) (o : call) : outcome (state * result) :=
  match exec m st o with
  | None => Ok (st, RSkipped)
  | Some Panic => Ok (st, RPanicked)
  | Some r => r
  end.

(** A history: the calls one after the other, and what each returned. *)
Fixpoint run (m : mode) (st : state) (os : list call) : outcome (state * list result) :=
  match os with
  | [] => Ok (st, [])
  | o :: os' =>
      '(st1, r) <- step m st o ;;
      '(st2, rs) <- run m st1 os' ;;
      Ok (st2, r :: rs)
  end.

End Program.
Arguments state T : clear implicits.
Arguments call T St : clear implicits.
Arguments result T St : clear implicits.
