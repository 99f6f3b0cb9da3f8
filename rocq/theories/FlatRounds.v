(** * FlatRounds: programs with any number of rounds of threads.

    A program begins with nothing, goes on alone, hands matrices to threads ([FlatScopes]),
    waits for their end ([FlatJoins]), goes on alone or with other threads, and so on. What
    threads share are the containers of data_container.rs:80-225, in matrices and references
    (base_matrix.rs:1-40, matrix_ref.rs:20-78); the threads themselves, as std::thread::scope
    makes them, are not part of this crate. *)

From Verif Require Import Machine Layouts Memory Matrix MatMul MatrixSpec ProductSpec Program HistorySpec Borrow Dealloc Threads Interleave.
From Verif Require Import Flat FlatThreads FlatDrops FlatPrograms FlatScopes FlatJoins.

Section FlatRounds.
Context {T : Type} {SC : HScalar T} {St : Type} {B : Type}.
Variable encode : T -> list B.
Variable decode : list B -> T.
Variable kern : kernel T.
Variable code : gemm_args T -> prog T unit.
Variable m : mode.

(** Safe code without split_in_four_mut that the borrow checker accepts after the state [fs].
    In release builds no index arithmetic in it wraps, whatever the items are. *)
Record goes_on (fs : fstate T) (acts : list (faction T St)) : Prop := {
  go_safe : Forall safe_call (calls acts);
  go_split : Forall no_split (kept acts);
  go_wrap : m = Checked \/ forall h, no_wrap_history kern m (mkState h (st_mats (b_state (f_state fs)))) (calls acts);
  go_accepted : exists o, frun kern m fs acts = Some o
}.

(** What is handed to threads, and what they do. *)
Record launches (fs : fstate T) (who : nat -> list nat) (owner : nat -> option nat) (progs : nat -> list (faction T St)) : Prop := {
  la_lends : lends_apart (f_state fs) who;
  la_keeps : kept_apart (handed (f_state fs) who) owner;
  la_safe : forall k, goes_on fs (map (refile (thread_names fs who k)) (progs k))
}.

(** They free what they make and what was moved to them, which are the matrices [xs]; [gs] is the first
    program without these. *)
Record gives_back (fs : fstate T) (who : nat -> list nat) (owner : nat -> option nat) (progs : nat -> list (faction T St))
    (xs : list nat) (gs : fstate T) : Prop := {
  gb_moved : exists rs : list (result T St), moved_out kern m fs xs = Some (Ok (gs, rs));
  gb_owns : owns_moved fs gs owner;
  gb_freed : forall k fs2 rs2 a, frun kern m fs (map (refile (thread_names fs who k)) (progs k)) = Some (Ok (fs2, rs2)) ->
    (a < length (st_heap (b_state (f_state fs2))))%nat -> (length (st_heap (b_state (f_state fs))) <= a)%nat \/ owner a = Some k -> In a (f_freed fs2)
}.

(** The threads of a program whose matrices are at [place]. *)
Definition started (fs : fstate T) (P : process T B) (place : nat -> nat) (who : nat -> list nat) (progs : nat -> list (faction T St))
    : dmachine T St B :=
  dlaunch (handed (f_state fs) who) place (y_mem (pr_bytes P)) (y_blocks (pr_bytes P)) (fun k => map erased (progs k)).

(** The items [h] that the program finds after its threads. *)
Definition found (gs : fstate T) (place : nat -> nat) (M : dmachine T St B) (h : @heap T) : Prop :=
  same_sizes (st_heap (b_state (f_state gs))) h /\
  forall a i v, hget h a i = Some v -> load decode (dm_mem M) (address (mkPlace (place a) i)) = v.

(** The states with names for allocations, and the processes, that programs reach. The
    allocators may be other ones in each round. *)
Inductive rounds : fstate T -> process T B -> Prop :=
| Begins : forall M0, rounds finitial (begin_process M0)
| GoesOn : forall fs P choose acts fs' rs P' rs', rounds fs P -> goes_on fs acts ->
    frun kern m fs acts = Some (Ok (fs', rs)) -> process_run encode decode code choose m P acts = Goes (P', rs') -> rounds fs' P'
| Joins : forall fs P choose place who owner progs xs gs sched M h, rounds fs P ->
    launches fs who owner progs -> gives_back fs who owner progs xs gs -> holds decode place fs P ->
    dturns encode decode code choose m (started fs P place who progs) sched = Goes M -> all_ended M ->
    found gs place M h -> rounds (with_items gs h) (waited gs P M).

End FlatRounds.
