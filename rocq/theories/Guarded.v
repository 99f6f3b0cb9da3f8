(** * Guarded: the library with four checks added and a truthful [stride].

    Like [Repaired] this file is NOT a model of existing code. The findings behind C10, C13,
    C20, C35, C38 and C39 are four missing checks. Here are the functions with these checks
    as assertions, and the machine of [Program] with these functions in place of those of
    the library; every other call is executed by [exec] of [Program]. The numbers in the
    assertions are not reduced modulo 2^64: an implementation would use the checked
    operations of Rust. *)

From Verif Require Import Machine Layouts Memory Matrix MatMul ProductSpec Program Repaired RepairedHistory.
Local Open Scope N_scope.

(** [number_of_elements] can be computed. *)
Definition count_fits (l : layout) : bool :=
  match l with
  | RowMajor d | ColumnMajor d | ArbitraryStrideRowMajor d _ | ArbitraryStrideColumnMajor d _ =>
      fst d * snd d <? usize_mod
  | UpperTriangular n => n * (n + 1) <? usize_mod
  | _ => true
  end.

(** The strides given by the user keep entries apart and address the [n] cells of the
    container only. *)
Definition strides_in (l : layout) (n : N) : bool :=
  match l with
  | ArbitraryStrideRowMajor d s | ArbitraryStrideColumnMajor d s =>
      ((1 <=? snd s) && (snd s * (snd d - 1) <? fst s) || (1 <=? fst s) && (fst s * (fst d - 1) <? snd s)) &&
      ((fst d =? 0) || (snd d =? 0) || ((fst d - 1) * fst s + (snd d - 1) * snd s <? n))
  | ArbitraryStrideRowVector d s | ArbitraryStrideColumnVector d s => (d =? 0) || ((d - 1) * s <? n)
  | _ => true
  end.

(** Check 1: [zeros_from_dim], constructors.rs:74-80, asserts that the number of elements
    can be computed. *)
Definition zeros_guarded {T : Type} {SC : HScalar T} (m : mode) (h : heap) (k : base_kind) (rows cols : N)
    : outcome (heap * base_matrix) :=
  l <- from_dimension k (rows, cols) ;;
  _ <- assert_ (count_fits l) ;;
  zeros_from_dim m h k rows cols.

(** Check 2: [from_data], base_matrix.rs:38-51, matrix.rs:144-146, asserts the same and
    that the strides fit. *)
Definition from_data_guarded (m : mode) (rs cs : size_id) (c : container) (l : layout) : outcome base_matrix :=
  _ <- assert_ (count_fits l && strides_in l (r_len (c_region c))) ;;
  from_data m rs cs c l.

(** Check 3: [block] and [block_mut], matrix_slices.rs:19-39, 48-69, assert that the block is
    not empty and inside of the matrix. *)
Definition block_guarded (m : mode) (mut : bool) (b : base_matrix) (tl d : N * N) : outcome base_matrix :=
  _ <- assert_ ((1 <=? fst d) && (1 <=? snd d) &&
                (fst tl + fst d <=? fst (dim (bm_layout b))) && (snd tl + snd d <=? snd (dim (bm_layout b)))) ;;
  block_with repaired_stride m mut b tl d.

(** Check 4: [split_in_four_mut], matrix_slices.rs:89-141, asserts that all parts have entries. *)
Definition split_guarded (m : mode) (b : base_matrix) (at_ : N * N)
    : outcome (base_matrix * base_matrix * base_matrix * base_matrix) :=
  let D := dim (bm_layout b) in
  _ <- assert_ ((1 <=? fst at_) && (fst at_ <? fst D) && (1 <=? snd at_) && (snd at_ <? snd D)) ;;
  split_in_four_mut m b at_.

Section Guarded.
Context {T : Type} {SC : HScalar T} {St : Type}.
Notation heap := (@heap T).
Variable kern : kernel T.

(** [dot], matrix_multiply.rs:75-91, 104-118, 138-152. *)
Definition dot_guarded (shape : dot_shape) (m : mode) (h : heap) (a b : base_matrix) : outcome (heap * base_matrix) :=
  '(h1, res) <- (match shape with
                 | MatrixMatrix => zeros_guarded m h KRowMajor
                 | RowMatrix => row_vector_zeros_from_dim m h
                 | MatrixColumn => column_vector_zeros_from_dim m h
                 end) (fst (dim (bm_layout a))) (snd (dim (bm_layout b))) ;;
  h2 <- matmul_with repaired_stride kern h1 sone a b szero res ;;
  Ok (h2, res).

(** [exec], [step] and [run] of [Program]; the same calls are possible. *)
Definition exec_guarded (m : mode) (st : state T) (o : call T St) : option (outcome (state T * result T St)) :=
  let h := st_heap st in
  match o with
  | CZeros k rows cols => Some (new1 st (zeros_guarded m h k rows cols))
  | CFromVector rs cs n l =>
      Some (new1 st ('(h', c) <- vector_container_new h n ;; b <- from_data_guarded m rs cs c l ;; Ok (h', b)))
  | CFromArray rs cs n l =>
      when (n * Npos ssize <=? isize_max)
        (Some (new1 st (let '(h', c) := array_container_new h n in
                        b <- from_data_guarded m rs cs c l ;; Ok (h', b))))
  | CFromSlice mut x first last rs cs l =>
      typed (lookup_block st mut x) (fun b =>
        Some (new_view st (r <- (if mut then get_slice_mut b first last else get_slice b first last) ;;
                           from_data_guarded m rs cs (slice_container mut r) l)))
  | CBlock mut x tl d =>
      typed (lookup_block st mut x) (fun b =>
        when (is_dynamic (base_sizes b)) (typed (block_order (bm_layout b)) (fun _ =>
          Some (new_view st (block_guarded m mut b tl d)))))
  | CSplit x at_ =>
      typed (lookup_mut st x) (fun b =>
        when (is_dynamic (base_sizes b))
          (match bm_layout b with
           | RowMajor _ =>
               Some ('(b0, b1, b2, b3) <- split_guarded m b at_ ;;
                     Ok (mkState h (st_mats st ++ [MBase b0; MBase b1; MBase b2; MBase b3]), RNew))
           | _ => None
           end))
  | CDot shape a b =>
      typed (lookup_base st a) (fun a => typed (lookup_base st b) (fun b =>
        when (dot_typed shape a b) (Some (new1 st (dot_guarded shape m h a b)))))
  | _ => exec_with repaired_stride kern m st o
  end.

Definition step_guarded (m : mode) (st : state T) (o : call T St) : outcome (state T * result T St) :=
  match exec_guarded m st o with
  | None => Ok (st, RSkipped)
  | Some Panic => Ok (st, RPanicked)
  | Some r => r
  end.

Fixpoint run_guarded (m : mode) (st : state T) (os : list (call T St)) : outcome (state T * list (result T St)) :=
  match os with
  | [] => Ok (st, [])
  | o :: os' =>
      '(st1, r) <- step_guarded m st o ;;
      '(st2, rs) <- run_guarded m st1 os' ;;
      Ok (st2, r :: rs)
  end.

(** No [unsafe] function is called. *)
Definition no_unsafe (o : call T St) : Prop :=
  match o with
  | CFromPointer _ _ _ _ _ | CFromPointerStrided _ _ _ _ _ _ => False
  | CGetUnchecked _ _ _ | CGet1dUnchecked _ _ | CSetUnchecked _ _ _ _ | CSet1dUnchecked _ _ _ => False
  | _ => True
  end.
End Guarded.
