(** * BlockedSpec: products computed block by block with the functions of the library. *)

From Verif Require Import Machine Layouts Memory Matrix MatMul Spec MatrixSpec ProductSpec.
Local Open Scope N_scope.

(** One block step: the rows and columns of C that it updates and the part of the inner
    dimension that it sums over, each as first index and number. *)
Record tile := mkTile { t_rows : N * N; t_cols : N * N; t_inner : N * N }.

Definition within_range (r : N * N) (i : N) : bool := (fst r <=? i) && (i <? fst r + snd r).

(** The step updates the entry (i, j) of C. *)
Definition updates (t : tile) (i j : N) : bool := within_range (t_rows t) i && within_range (t_cols t) j.

Section Blocked.
Context {T : Type} {SC : HScalar T}.
Notation heap := (@heap T).

(** A user's loop
<<
    matmul(alpha, a.block((r, l), (nr, nl)), b.block((l, c), (nl, nc)), beta, c.block_mut((r, c), (nr, nc)))
>>
    over a list of tiles and values of beta. block: src/matrix/matrix_slices.rs:19-39,
    block_mut: :48-69, matmul: src/matrix_multiply.rs:189-237. *)
Fixpoint blocked (kern : kernel T) (m : mode) (h : heap) (alpha : T) (a b c : base_matrix) (ts : list (tile * T))
    : outcome heap :=
  match ts with
  | [] => Ok h
  | (t, beta) :: ts' =>
      x <- block m false a (fst (t_rows t), fst (t_inner t)) (snd (t_rows t), snd (t_inner t)) ;;
      y <- block m false b (fst (t_inner t), fst (t_cols t)) (snd (t_inner t), snd (t_cols t)) ;;
      z <- block m true c (fst (t_rows t), fst (t_cols t)) (snd (t_rows t), snd (t_cols t)) ;;
      h' <- matmul kern h alpha x y beta z ;;
      blocked kern m h' alpha a b c ts'
  end.

(** What one step ought to do to the entries of C. *)
Definition tile_entry (alpha : T) (A B : N -> N -> T) (tb : tile * T) (C : N -> N -> T) (i j : N) : T :=
  let (t, beta) := tb in
  if updates t i j
  then sadd (smul alpha (sum_below (N.to_nat (snd (t_inner t)))
                           (fun l => smul (A i (fst (t_inner t) + l)) (B (fst (t_inner t) + l) j))))
            (smul beta (C i j))
  else C i j.

Definition tile_entries (alpha : T) (A B : N -> N -> T) (ts : list (tile * T)) (C : N -> N -> T) : N -> N -> T :=
  fold_left (fun C' tb => tile_entry alpha A B tb C') ts C.

(** The blocks of a step exist and their entries are consecutive in memory (see C34). *)
Definition tile_fits (a b c : base_matrix) (t : tile) : Prop :=
  let w (x : base_matrix) r s :=
    nonempty (snd r, snd s) /\ inside (dim (bm_layout x)) (fst r, fst s) (snd r, snd s) /\
    unbroken (bm_layout x) (snd r, snd s) in
  w a (t_rows t) (t_inner t) /\ w b (t_inner t) (t_cols t) /\ w c (t_rows t) (t_cols t).

(** The number of steps that add the product A(i, l) B(l, j) to C(i, j). *)
Definition times (ts : list (tile * T)) (i j l : N) : nat :=
  length (filter (fun tb => updates (fst tb) i j && within_range (t_inner (fst tb)) l) ts).
End Blocked.
