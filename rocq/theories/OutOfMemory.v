(** * OutOfMemory: what the programs ask of the allocator.

    The runs of [Flat] and [FlatThreads] stop with [NoMemory] when the allocator has no
    memory. Here: the blocks that a run asks for, with the state of the memory at that
    time. Rust asks for memory in [vec!] (data_container.rs:104) only; when the allocator
    has none, it ends the process. *)

From Verif Require Import Machine Layouts Memory Matrix MatMul Spec MatrixSpec ExprSpec ProductSpec.
From Verif Require Import Program HistorySpec Borrow Dealloc Threads Interleave Flat FlatThreads.
Local Open Scope N_scope.

Section OutOfMemory.
Context {T : Type} {SC : HScalar T} {St : Type} {B : Type}.
Variable encode : T -> list B.
Variable decode : list B -> T.
Variable code : gemm_args T -> prog T unit.

(** The blocks that a program asks for; see [perform] in Flat.v. *)
Fixpoint requests (choose : nat -> nat) {A : Type} (c : prog T A) (Y : @bytes B) : list ((nat * N) * @bytes B) :=
  match c with
  | Stop _ => []
  | Load p k => requests choose (k (load decode (y_mem Y) (address p))) Y
  | Store p v k => requests choose k (mkBytes (store encode (y_mem Y) (address p) v) (y_blocks Y) (y_log Y))
  | Alloc l k =>
      let b := (choose (y_count Y), N.of_nat (length l)) in
      (b, Y) :: if grants Y b then requests choose (k (mkRegion (fst b) 0 (snd b))) (take encode Y b l) else []
  end.

(** The blocks that a step of a history asks for; see [step_visits] in Flat.v. *)
Definition step_requests (choose : nat -> nat) (m : mode) (P : @process T B) (fa : faction T St) : list ((nat * N) * @bytes B) :=
  match fa with
  | Act (Do o) =>
      match admit_uses (pr_slots P) (uses o), program code m (pr_table P) o with
      | Some _, Some c => requests choose c (pr_bytes P)
      | _, _ => []
      end
  | _ => []
  end.

(** The block that a thread is about to ask for. *)
Definition next_request (choose : nat -> nat -> nat) (k : nat) (t : fthread T St) : option (nat * N) :=
  match ft_now t with
  | Some (_, _, Alloc l _) => Some (choose k (ft_count t), N.of_nat (length l))
  | _ => None
  end.

(** The items of the blocks. *)
Definition items (bs : list (nat * N)) : N := fold_right (fun b n => snd b + n) 0 bs.

(** The block leaves the address space, or has a byte in common with a block in use. *)
Definition not_free (b : nat * N) (used : list (nat * N)) : Prop :=
  snd b <> 0 /\ (usize_mod < N.of_nat (fst b) + snd b * item_size \/ exists b' x, In b' used /\ in_block b x /\ in_block b' x).

(** At some moment of the history, the step [a] asks for the block [b] in the state [Y]. *)
Definition asks (choose : nat -> nat) (m : mode) (P : @process T B) (acts : list (faction T St)) (b : nat * N) (Y : @bytes B) : Prop :=
  exists acts1 a acts2 P1 rs, acts = acts1 ++ a :: acts2 /\
    process_run encode decode code choose m P acts1 = Goes (P1, rs) /\ In (b, Y) (step_requests choose m P1 a).

(** The blocks that the threads are given along a schedule, the last one first. *)
Fixpoint given (choose : nat -> nat -> nat) (m : mode) (M : fmachine T St B) (sched : list nat) : list (nat * N) :=
  match sched with
  | [] => []
  | k :: sched' =>
      match turn encode decode code choose m M k with
      | Goes M' => given choose m M' sched' ++ match next_request choose k (fm_thread M k) with Some b => [b] | None => [] end
      | _ => []
      end
  end.

End OutOfMemory.
