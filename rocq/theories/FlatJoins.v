(** * FlatJoins: the first program goes on after its threads.

    A program lends matrices to threads ([FlatScopes]), waits until they have ended, as
    std::thread::scope does (not part of this crate), and goes on with its own matrices. *)

From Verif Require Import Machine Layouts Memory Matrix MatMul MatrixSpec ProductSpec Program HistorySpec Borrow Dealloc Threads Flat FlatDrops.

Section FlatJoins.
Context {T : Type} {SC : HScalar T} {St : Type} {B : Type}.

(** The same allocations with the same numbers of items. *)
Definition same_sizes (h h' : @heap T) : Prop :=
  forall a, option_map (@length T) (nth_error h' a) = option_map (@length T) (nth_error h a).

(** The state of the first program with other items. *)
Definition with_items (fs : fstate T) (h : @heap T) : fstate T :=
  mkFState (mkBState (mkState h (st_mats (b_state (f_state fs)))) (b_slots (f_state fs))) (f_gone fs) (f_freed fs).

(** The first program without the matrices [xs], which it moved to threads: as if it had
    destroyed them, though it is the threads that do. *)
Definition moved_out (kern : kernel T) (m : mode) (fs : fstate T) (xs : list nat) : option (outcome (fstate T * list (result T St))) :=
  frun kern m fs (map (fun x => Act (Drop x)) xs).

(** The threads own what the first program moved to them: [fs] is its state before, [gs] after. *)
Definition owns_moved (fs gs : fstate T) (owner : nat -> option nat) : Prop :=
  forall a l, nth_error (st_heap (b_state (f_state fs))) a = Some l -> l <> [] -> (owner a <> None <-> In a (f_freed gs)).

(** The process of the first program with the bytes and the blocks that the threads leave;
    [gs] tells what it may still use and what it moved. (The log of the allocator, which only
    numbers the choices to come, begins anew.) *)
Definition waited (gs : fstate T) (P : process T B) (M : dmachine T St B) : process T B :=
  mkProcess (mkBytes (dm_mem M) (dm_used M) (dm_used M)) (pr_table P) (b_slots (f_state gs)) (f_gone gs).

(** No thread makes a step any more. *)
Definition all_ended (M : dmachine T St B) : Prop :=
  forall k, dt_now (dm_thread M k) = None /\ dt_left (dm_thread M k) = [].

End FlatJoins.
