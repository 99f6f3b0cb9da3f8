(** * Threads: several sequences of calls on one memory.

    Rust lets a program hand matrices to threads (scoped threads can borrow them).
    Each thread has its own table of matrices; the memory is common. A schedule is
    any interleaving of the calls of the threads. A call is one step: calls of two
    threads that run at the same time are not modelled below that level, but
    [conflicting] says when two calls could touch the same cell. *)

From Verif Require Import Machine Layouts Memory Matrix MatMul Spec MatrixSpec ExprSpec ProductSpec Program HistorySpec Borrow.
Local Open Scope N_scope.

Section Threads.
Context {T : Type} {SC : HScalar T} {St : Type}.
Variable kern : kernel T.
Notation heap := (@heap T).

(** The memory, and the table of each thread; threads are numbered. *)
Record pool := mkPool { p_heap : heap; p_tabs : nat -> list (matrix T) }.

(** What the thread [k] sees. *)
Definition view (p : pool) (k : nat) : state T := mkState (p_heap p) (p_tabs p k).

(** One call of the thread [k], as in [Program]. *)
Definition pstep (m : mode) (p : pool) (k : nat) (o : call T St) : outcome (pool * result T St) :=
  '(st, r) <- step kern m (view p k) o ;;
  Ok (mkPool (st_heap st) (fun j => if Nat.eqb j k then st_mats st else p_tabs p j), r).

(** A schedule: which thread makes which call. *)
Fixpoint prun (m : mode) (p : pool) (sched : list (nat * call T St))
    : outcome (pool * list (nat * result T St)) :=
  match sched with
  | [] => Ok (p, [])
  | (k, o) :: sched' =>
      '(p1, r) <- pstep m p k o ;;
      '(p2, rs) <- prun m p1 sched' ;;
      Ok (p2, (k, r) :: rs)
  end.

(** The part of a schedule, or of what it returned, that belongs to the thread [k]. *)
Definition of_thread {A : Type} (k : nat) (l : list (nat * A)) : list A :=
  map snd (filter (fun e => Nat.eqb (fst e) k) l).

(** ** The vocabulary of the properties *)

(** All matrices lie in memory that exists. *)
Definition in_memory (p : pool) : Prop :=
  forall k x a, In x (p_tabs p k) -> lives_in a x -> (a < length (p_heap p))%nat.

(** No thread has a writable matrix whose container has a cell in common with a
    matrix of another thread. Read-only matrices may be shared. *)
Definition apart (p : pool) : Prop :=
  forall j k x y q, j <> k -> In x (p_tabs p j) -> In y (p_tabs p k) -> is_writable x = true ->
    occupies x q -> ~ occupies y q.

(** A matrix in one memory and one in another are the same to the caller. *)
Definition same_matrix (h : heap) (x : matrix T) (h' : heap) (y : matrix T) : Prop :=
  mat_dim y = mat_dim x /\ mat_size y = mat_size x /\ is_writable y = is_writable x /\
  forall m, (forall r c, get m h' y r c = get m h x r c) /\ (forall i, get1d m h' y i = get1d m h x i).

(** The call takes an operand whose container has the cell [q]. *)
Definition reads_over (st : state T) (o : call T St) (q : nat * N) : Prop :=
  exists x a w, In (x, a) (uses o) /\ nth_error (st_mats st) x = Some w /\ occupies w q.

(** Two calls could race: one writes a cell that the other can reach. *)
Definition conflicting (p : pool) (j k : nat) (o o' : call T St) : Prop :=
  exists q, (writes_over (view p j) o q /\ reads_over (view p k) o' q) \/
            (writes_over (view p k) o' q /\ reads_over (view p j) o q).

(** A program hands matrices of its table to threads: [who k] are the numbers of
    those that the thread [k] gets. *)
Definition handed (bs : bstate T) (who : nat -> list nat) : pool :=
  mkPool (st_heap (b_state bs))
    (fun k => flat_map (fun x => match nth_error (st_mats (b_state bs)) x with Some w => [w] | None => [] end) (who k)).

(** It hands out usable matrices, and no thread gets a matrix that is, or borrows
    from, or is borrowed by, a writable matrix of another thread. *)
Definition lends_apart (bs : bstate T) (who : nat -> list nat) : Prop :=
  (forall k x, In x (who k) -> is_live (b_slots bs) x = true) /\
  (forall j k x y v, j <> k -> In x (who j) -> In y (who k) ->
     nth_error (st_mats (b_state bs)) x = Some v -> is_writable v = true ->
     ~ below (b_slots bs) x y /\ ~ below (b_slots bs) y x).

(** ** Entries instead of containers *)

(** A safe call, computing no size beyond 2^64 - 1 if overflow is not checked, that touches no cell of its
    operands but those of their entries: no slices, no blocks of several rows (columns,
    if the matrix is column-major) and no products where [stride] does not tell the true
    strides. *)
Definition careful (m : mode) (st : state T) (o : call T St) : Prop :=
  let by_entry x := forall b, lookup_base st x = Some b -> true_strides (bm_layout b) in
  safe_call o /\ (m = Checked \/ no_wrap_call st o) /\
  match o with
  | CSliceRead _ _ _ _ | CSliceWrite _ _ _ _ _ | CFromSlice _ _ _ _ _ _ _ => False
  | CBlock _ x _ d => forall b, lookup_base st x = Some b ->
      true_strides (bm_layout b) \/
      (block_order (bm_layout b) = Some ByRow /\ fst d = 1) \/
      (block_order (bm_layout b) = Some ByColumn /\ snd d = 1)
  | CMatmul _ x y _ z => by_entry x /\ by_entry y /\ by_entry z
  | CDot _ x y => by_entry x /\ by_entry y
  | _ => True
  end.

Fixpoint careful_history (m : mode) (st : state T) (os : list (call T St)) : Prop :=
  match os with
  | [] => True
  | o :: os' => careful m st o /\ forall st' r, step kern m st o = Ok (st', r) -> careful_history m st' os'
  end.

(** No writable matrix of one thread has an entry in a cell of an entry of another. *)
Definition entries_apart (p : pool) : Prop :=
  forall j k x y q, j <> k -> In x (p_tabs p j) -> In y (p_tabs p k) -> is_writable x = true ->
    has_cell x q -> ~ has_cell y q.

End Threads.
Arguments pool T : clear implicits.
