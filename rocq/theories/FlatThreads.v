(** * FlatThreads: threads on the bytes.

    [Interleave] lets threads take turns access by access, in a memory where every
    allocation has a name of its own and what a thread allocates is out of the reach of the
    others. [Flat] runs the calls of one thread on an array of bytes. Here many threads run
    on one array of bytes, with one allocator: the memory that a thread allocates is next to
    that of the others, and what a call gives back when it panics may be handed out to
    another thread.

    Simplified: as in [Interleave], the load or store of an item is one step, memory is
    sequentially consistent, and a thread keeps its matrices to the end (no destructors but
    those that run when a call panics). *)

From Verif Require Import Machine Layouts Memory Matrix MatMul Spec MatrixSpec ExprSpec ProductSpec.
From Verif Require Import Program HistorySpec Borrow Dealloc Threads Interleave Flat.
Local Open Scope N_scope.

Section FlatThreads.
Context {T : Type} {SC : HScalar T} {St : Type} {B : Type}.
Variable encode : T -> list B.
Variable decode : list B -> T.
Variable code : gemm_args T -> prog T unit.

(** Where the allocator puts the first, second, ... allocation of each thread. *)
Variable choose : nat -> nat -> nat.

(** A thread: its matrices, the number of its allocations, the calls it has yet to make, the
    call it is making (with the blocks that the call allocated, and what is left of its
    program) and what its calls returned. *)
Record fthread := mkFThread {
  ft_table : list (matrix T);
  ft_count : nat;
  ft_left : list (call T St);
  ft_now : option (call T St * list (nat * N) * prog T (list (matrix T) * result T St));
  ft_done : list (result T St)
}.

(** The bytes, the blocks in use, and the threads. *)
Record fmachine := mkFMachine { fm_mem : N -> B; fm_used : list (nat * N); fm_thread : nat -> fthread }.

Definition put_thread (f : nat -> fthread) (k : nat) (t : fthread) : nat -> fthread :=
  fun j => if Nat.eqb j k then t else f j.

(** One step of the thread [k]: it begins or ends a call, or makes one access. When a call
    panics, the unwinding frees what it allocated (the vectors of data_container.rs:80-82). See [mstep] in Interleave.v and
    [call_process] in Flat.v. *)
Definition turn (m : mode) (M : fmachine) (k : nat) : effect fmachine :=
  let t := fm_thread M k in
  let goes mem used t' := Goes (mkFMachine mem used (put_thread (fm_thread M) k t')) in
  match ft_now t with
  | None =>
      match ft_left t with
      | [] => Goes M
      | o :: rest =>
          match program code m (ft_table t) o with
          | None => goes (fm_mem M) (fm_used M)
                      (mkFThread (ft_table t) (ft_count t) rest None (ft_done t ++ [RSkipped]))
          | Some c => goes (fm_mem M) (fm_used M)
                        (mkFThread (ft_table t) (ft_count t) rest (Some (o, [], c)) (ft_done t))
          end
      end
  | Some (o, new, c) =>
      let on c' := mkFThread (ft_table t) (ft_count t) (ft_left t) (Some (o, new, c')) (ft_done t) in
      match c with
      | Stop (Ok (ms, r)) =>
          goes (fm_mem M) (fm_used M)
            (mkFThread (ft_table t ++ ms) (ft_count t) (ft_left t) None (ft_done t ++ [r]))
      | Stop Panic =>
          goes (fm_mem M) (filter (fun b => negb (existsb (block_eqb b) new)) (fm_used M))
            (mkFThread (ft_table t) (ft_count t) (ft_left t) None (ft_done t ++ [RPanicked]))
      | Stop UB => Undefined
      | Load p c' => goes (fm_mem M) (fm_used M) (on (c' (load decode (fm_mem M) (address p))))
      | Store p v c' => goes (store encode (fm_mem M) (address p) v) (fm_used M) (on c')
      | Alloc l c' =>
          let b := (choose k (ft_count t), N.of_nat (length l)) in
          let Y := mkBytes (fm_mem M) (fm_used M) [] in
          if grants Y b then
            goes (y_mem (take encode Y b l)) (y_blocks (take encode Y b l))
              (mkFThread (ft_table t) (S (ft_count t)) (ft_left t)
                 (Some (o, b :: new, c' (mkRegion (fst b) 0 (snd b)))) (ft_done t))
          else NoMemory
      end
  end.

(** A schedule: which thread makes the next step. *)
Fixpoint turns (m : mode) (M : fmachine) (sched : list nat) : effect fmachine :=
  match sched with
  | [] => Goes M
  | k :: sched' => match turn m M k with Goes M' => turns m M' sched' | e => e end
  end.

(** The threads of the pool [p] begin, each with its calls. The matrices are in the memory
    [M], at the addresses that [place] gives; [used] are the blocks in use. *)
Definition flaunch (p : pool T) (place : nat -> nat) (M : N -> B) (used : list (nat * N))
    (calls : nat -> list (call T St)) : fmachine :=
  mkFMachine M used (fun k => mkFThread (map (move_matrix place) (p_tabs p k)) 0 (calls k) None []).

(** ** The vocabulary of the properties *)

Definition now_calls (t : fthread) : list (call T St) :=
  match ft_now t with Some (o, _, _) => [o] | None => [] end.

(** The access a thread is about to make: the address, and whether it writes. *)
Definition next_visit (t : fthread) : option (N * bool) :=
  match ft_now t with
  | Some (_, _, Load p _) => Some (address p, false)
  | Some (_, _, Store p _ _) => Some (address p, true)
  | _ => None
  end.

(** Two threads are about to access a common byte, and one of them writes. *)
Definition byte_race (M : fmachine) : Prop :=
  exists j k a w a' w' x, j <> k /\
    next_visit (fm_thread M j) = Some (a, w) /\ next_visit (fm_thread M k) = Some (a', w') /\
    a <= x < a + item_size /\ a' <= x < a' + item_size /\ (w = true \/ w' = true).

(** The memory of the pool is in the bytes: the allocations that are not empty are the blocks
    in use, without a common byte; the matrices lie inside of their allocations, and owners
    have a whole one. *)
Record laid_out (p : pool T) (place : nat -> nat) (M : N -> B) (used : list (nat * N)) : Prop := {
  laid_items : forall a i v, hget (p_heap p) a i = Some v -> load decode M (address (mkPlace (place a) i)) = v;
  laid_blocks : forall b, In b used <->
    exists a l, nth_error (p_heap p) a = Some l /\ l <> [] /\ b = (place a, N.of_nat (length l));
  laid_once : NoDup used;
  laid_apart : forall a a' l l', nth_error (p_heap p) a = Some l -> nth_error (p_heap p) a' = Some l' ->
    l <> [] -> l' <> [] -> a <> a' ->
    forall x, ~ (in_block (place a, N.of_nat (length l)) x /\ in_block (place a', N.of_nat (length l')) x);
  laid_inside : forall k x q, In x (p_tabs p k) -> occupies x q -> hget (p_heap p) (fst q) (snd q) <> None;
  laid_owned : forall k x b, In x (p_tabs p k) -> In b (owned_blocks x) ->
    exists l, nth_error (p_heap p) (fst b) = Some l /\ snd b = N.of_nat (length l)
}.

End FlatThreads.
Arguments fthread T St : clear implicits.
Arguments fmachine T St B : clear implicits.
