(** * FlatPrograms: safe programs as the threads of one machine.

    [FlatDrops] runs threads on one array of bytes and asks that each of them alone has no
    undefined behaviour. Here the threads are programs of [Dealloc], which the borrow checker
    accepts, and start with nothing: each makes its own matrices.

    Simplified: as in [FlatDrops]. The threads share the bytes and the allocator, and no
    matrix. *)

From Verif Require Import Machine Layouts Memory Matrix MatMul MatrixSpec ProductSpec Program HistorySpec Borrow Dealloc Threads Flat FlatDrops.

Section FlatPrograms.
Context {T : Type} {SC : HScalar T} {St : Type}.

(** What is left of a program when it runs: its calls and its destructors (data_container.rs:80-96). *)
Definition erased (a : faction T St) : taction T St :=
  match a with Act (Do o) => TCall o | Act (Drop x) | ScopeEnd x => TFree x end.

(** The results of the calls among those of all steps. *)
Fixpoint call_results (acts : list (faction T St)) (rs : list (result T St)) : list (result T St) :=
  match acts with
  | [] => []
  | Act (Do _) :: acts' => match rs with [] => [] | r :: rs' => r :: call_results acts' rs' end
  | Act (Drop _) :: acts' => call_results acts' (tl rs)
  | ScopeEnd _ :: acts' => call_results acts' rs
  end.

(** No matrices and no memory. *)
Definition no_pool : pool T := mkPool [] (fun _ => []).
Definition nobody (a : nat) : option nat := None.

(** A program of safe code that the borrow checker accepts, without split_in_four_mut, whose
    blocks overlap in memory (matrix_slices.rs:89-141, see C23). *)
Record safe_program (kern : kernel T) (m : mode) (acts : list (faction T St)) : Prop := {
  sp_safe : Forall safe_call (calls acts);
  sp_split : Forall no_split (kept acts);
  sp_wrap : m = Checked \/ no_wrap_history kern m initial (calls acts);
  sp_accepted : exists o, frun kern m finitial acts = Some o
}.

(** The same matrices, memory, and freed allocations. *)
Definition same_memory (fs gs : fstate T) : Prop :=
  b_state (f_state fs) = b_state (f_state gs) /\ f_freed fs = f_freed gs.

End FlatPrograms.
