(** * FlatDrops: threads on the bytes that destroy their matrices.

    [FlatThreads] keeps the matrices of a thread to the end. Here the threads run their
    destructors: a matrix is dropped or leaves its scope, and a value that was moved into a
    call that panics is destroyed by the unwinding (see Dealloc.v). The memory of a matrix
    that is destroyed goes back to the allocator that all threads share, and may be handed
    out to another thread while matrices of the first still point to it.

    Simplified: as in [FlatThreads]; the destructor of a matrix is one step. A matrix that
    was moved or destroyed stays in the table of its thread, and the thread may name it
    again: what is excluded is undefined behaviour of the thread alone, not the name. *)

From Verif Require Import Machine Layouts Memory Matrix MatMul Spec MatrixSpec ExprSpec ProductSpec.
From Verif Require Import Program HistorySpec Borrow Dealloc Threads Interleave Flat.
Local Open Scope N_scope.

Section FlatDrops.
Context {T : Type} {SC : HScalar T} {St : Type} {B : Type}.
Variable encode : T -> list B.
Variable decode : list B -> T.
Variable kern : kernel T.
Variable code : gemm_args T -> prog T unit.

(** What a thread does: calls, and the destructor of the matrix number [x]. *)
Inductive taction := TCall (o : call T St) | TFree (x : nat).

(** The operands that are destroyed when a call returns [r]: those that were moved into it,
    unless they were moved on into its result. See [fstep] in Dealloc.v (addition.rs:50-60,
    scalar_mult.rs:46-55, data_container.rs:80-96). *)
Definition consumed (o : call T St) (r : result T St) : list nat :=
  match r with RNew => [] | _ => moved (Do o) end.

(** ** One thread alone, with a memory of its own *)

Definition alone_step (m : mode) (fs : fstate T) (a : taction) : outcome (fstate T * list (result T St)) :=
  match a with
  | TCall o =>
      '(st, r) <- step kern m (b_state (f_state fs)) o ;;
      fs' <- destroy_all (mkFState (mkBState st []) (f_gone fs) (f_freed fs)) (consumed o r) ;;
      Ok (fs', [r])
  | TFree x => fs' <- destroy fs x ;; Ok (fs', [])
  end.
Fixpoint alone_run (m : mode) (fs : fstate T) (acts : list taction) : outcome (fstate T * list (result T St)) :=
  match acts with
  | [] => Ok (fs, [])
  | a :: acts' =>
      '(fs1, r) <- alone_step m fs a ;; '(fs2, rs) <- alone_run m fs1 acts' ;; Ok (fs2, r ++ rs)
  end.
(** Products along the run are plain, see [plain_history] in Interleave.v (matrix_multiply.rs:189-238). *)
Fixpoint plain_actions (m : mode) (fs : fstate T) (acts : list taction) : Prop :=
  match acts with
  | [] => True
  | a :: acts' =>
      match a with TCall o => plain_call (b_state (f_state fs)) o | TFree _ => True end /\
      forall fs' r, alone_step m fs a = Ok (fs', r) -> plain_actions m fs' acts'
  end.

(** ** Many threads *)

(** Where the allocator puts the first, second, ... allocation of each thread. *)
Variable choose : nat -> nat -> nat.

(** A thread, see [fthread] in FlatThreads.v. *)
Record dthread := mkDThread {
  dt_table : list (matrix T);
  dt_count : nat;
  dt_left : list taction;
  dt_now : option (call T St * list (nat * N) * prog T (list (matrix T) * result T St));
  dt_done : list (result T St)
}.

(** The bytes, the blocks in use, and the threads. *)
Record dmachine := mkDMachine { dm_mem : N -> B; dm_used : list (nat * N); dm_thread : nat -> dthread }.

Definition put_dthread (f : nat -> dthread) (k : nat) (t : dthread) : nat -> dthread :=
  fun j => if Nat.eqb j k then t else f j.

(** The memory that the destructors of the matrices [xs] of a table give back (data_container.rs:80-96). *)
Definition released (tb : list (matrix T)) (xs : list nat) : list (nat * N) :=
  flat_map (fun x => match nth_error tb x with Some v => owned_blocks v | None => [] end) xs.

(** The thread [k] goes on as [t] after the destructors of its matrices [xs]: undefined if
    they free a block that is not in use. *)
Definition settle (M : dmachine) (used : list (nat * N)) (k : nat) (t : dthread) (xs : list nat) : effect dmachine :=
  match give_back_all (mkBytes (dm_mem M) used []) (released (dt_table t) xs) with
  | Ok Y => Goes (mkDMachine (dm_mem M) (y_blocks Y) (put_dthread (dm_thread M) k t))
  | _ => Undefined
  end.

(** One step of the thread [k], see [turn] in FlatThreads.v. *)
Definition dturn (m : mode) (M : dmachine) (k : nat) : effect dmachine :=
  let t := dm_thread M k in
  let goes mem used t' := Goes (mkDMachine mem used (put_dthread (dm_thread M) k t')) in
  match dt_now t with
  | None =>
      match dt_left t with
      | [] => Goes M
      | TFree x :: rest =>
          settle M (dm_used M) k (mkDThread (dt_table t) (dt_count t) rest None (dt_done t)) [x]
      | TCall o :: rest =>
          match program code m (dt_table t) o with
          | None => settle M (dm_used M) k
                      (mkDThread (dt_table t) (dt_count t) rest None (dt_done t ++ [RSkipped])) (consumed o RSkipped)
          | Some c => goes (dm_mem M) (dm_used M)
                        (mkDThread (dt_table t) (dt_count t) rest (Some (o, [], c)) (dt_done t))
          end
      end
  | Some (o, new, c) =>
      let on c' := mkDThread (dt_table t) (dt_count t) (dt_left t) (Some (o, new, c')) (dt_done t) in
      match c with
      | Stop (Ok (ms, r)) =>
          settle M (dm_used M) k
            (mkDThread (dt_table t ++ ms) (dt_count t) (dt_left t) None (dt_done t ++ [r])) (consumed o r)
      | Stop Panic =>
          settle M (filter (fun b => negb (existsb (block_eqb b) new)) (dm_used M)) k
            (mkDThread (dt_table t) (dt_count t) (dt_left t) None (dt_done t ++ [RPanicked])) (consumed o RPanicked)
      | Stop UB => Undefined
      | Load p c' => goes (dm_mem M) (dm_used M) (on (c' (load decode (dm_mem M) (address p))))
      | Store p v c' => goes (store encode (dm_mem M) (address p) v) (dm_used M) (on c')
      | Alloc l c' =>
          let b := (choose k (dt_count t), N.of_nat (length l)) in
          let Y := mkBytes (dm_mem M) (dm_used M) [] in
          if grants Y b then
            goes (y_mem (take encode Y b l)) (y_blocks (take encode Y b l))
              (mkDThread (dt_table t) (S (dt_count t)) (dt_left t)
                 (Some (o, b :: new, c' (mkRegion (fst b) 0 (snd b)))) (dt_done t))
          else NoMemory
      end
  end.

(** A schedule: which thread makes the next step. *)
Fixpoint dturns (m : mode) (M : dmachine) (sched : list nat) : effect dmachine :=
  match sched with
  | [] => Goes M
  | k :: sched' => match dturn m M k with Goes M' => dturns m M' sched' | e => e end
  end.

(** The threads of the pool [p] begin. *)
Definition dlaunch (p : pool T) (place : nat -> nat) (M : N -> B) (used : list (nat * N))
    (acts : nat -> list taction) : dmachine :=
  mkDMachine M used (fun k => mkDThread (map (move_matrix place) (p_tabs p k)) 0 (acts k) None []).

(** ** The vocabulary of the properties *)

(** [owner a] is the thread that owns the allocation [a], if one does; the others are
    common: the threads only borrow them. *)
Definition visible (owner : nat -> option nat) (k a : nat) : bool :=
  match owner a with Some j => Nat.eqb j k | None => true end.
(** The memory without the allocations that other threads own. *)
Fixpoint hide (owner : nat -> option nat) (k n : nat) (h : @heap T) : @heap T :=
  match h with
  | [] => []
  | l :: h' => (if visible owner k n then l else []) :: hide owner k (S n) h'
  end.
(** What the thread [k] starts with when it runs alone. *)
Definition alone (p : pool T) (owner : nat -> option nat) (k : nat) : fstate T :=
  mkFState (mkBState (mkState (hide owner k 0 (p_heap p)) (p_tabs p k)) []) [] [].

(** A thread owns what the destructors of its matrices would free, and holds nothing that
    another thread owns. *)
Record owned_apart (p : pool T) (owner : nat -> option nat) : Prop := {
  own_mine : forall k x a, In x (p_tabs p k) -> In a (owned x) -> owner a = Some k;
  own_held : forall k x q j, In x (p_tabs p k) -> occupies x q -> owner (fst q) = Some j -> j = k
}.

Definition now_actions (t : dthread) : list taction :=
  match dt_now t with Some (o, _, _) => [TCall o] | None => [] end.

(** The access a thread is about to make: the address, and whether it writes. *)
Definition dnext_visit (t : dthread) : option (N * bool) :=
  match dt_now t with
  | Some (_, _, Load p _) => Some (address p, false)
  | Some (_, _, Store p _ _) => Some (address p, true)
  | _ => None
  end.

(** Two threads are about to access a common byte, and one of them writes. *)
Definition dbyte_race (M : dmachine) : Prop :=
  exists j k a w a' w' x, j <> k /\
    dnext_visit (dm_thread M j) = Some (a, w) /\ dnext_visit (dm_thread M k) = Some (a', w') /\
    a <= x < a + item_size /\ a' <= x < a' + item_size /\ (w = true \/ w' = true).

(** The blocks that the destructors of the next step of a thread free. *)
Definition next_frees (m : mode) (t : dthread) : list (nat * N) :=
  match dt_now t with
  | None =>
      match dt_left t with
      | [] => []
      | TFree x :: _ => released (dt_table t) [x]
      | TCall o :: _ =>
          match program code m (dt_table t) o with None => released (dt_table t) (consumed o RSkipped) | Some _ => [] end
      end
  | Some (o, new, Stop Panic) => new ++ released (dt_table t) (consumed o RPanicked)
  | Some (o, _, Stop (Ok (ms, r))) => released (dt_table t ++ ms) (consumed o r)
  | _ => []
  end.
(** One thread is about to free memory that another is about to access. *)
Definition free_race (m : mode) (M : dmachine) : Prop :=
  exists j k b a w x, j <> k /\ In b (next_frees m (dm_thread M j)) /\ dnext_visit (dm_thread M k) = Some (a, w) /\
    in_block b x /\ a <= x < a + item_size.
(** Two threads are about to free a common byte. *)
Definition double_free (m : mode) (M : dmachine) : Prop :=
  exists j k b b' x, j <> k /\ In b (next_frees m (dm_thread M j)) /\ In b' (next_frees m (dm_thread M k)) /\
    in_block b x /\ in_block b' x.

End FlatDrops.
Arguments taction T St : clear implicits.
Arguments dthread T St : clear implicits.
Arguments dmachine T St B : clear implicits.
