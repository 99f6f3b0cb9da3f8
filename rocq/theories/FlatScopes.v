(** * FlatScopes: a program that hands its matrices to threads.

    A program of safe code makes matrices and views, and hands some of them to threads, as
    references or by value. Each thread goes on with a program of its own. [FlatThreads] and
    [FlatDrops] number the matrices of a thread by themselves: first those it was handed, then
    those it makes. Here its program is read as a continuation of the first one, with the
    numbers that the first program uses.

    Simplified: as in [FlatDrops]. The first program does not go on before the threads end. *)

From Verif Require Import Machine Layouts Memory Matrix MatMul MatrixSpec ProductSpec Program HistorySpec Borrow Dealloc Threads Flat FlatDrops FlatPrograms.

Section FlatScopes.
Context {T : Type} {SC : HScalar T} {St : Type}.

(** The same call with other numbers for the matrices. *)
Definition refile_call (f : nat -> nat) (o : call T St) : call T St :=
  match o with
  | CFromSlice mut x first last rs cs l => CFromSlice mut (f x) first last rs cs l
  | CFromPointer mut q x off d => CFromPointer mut q (f x) off d
  | CFromPointerStrided mut q x off d s => CFromPointerStrided mut q (f x) off d s
  | CGet x r c => CGet (f x) r c
  | CGet1d x i => CGet1d (f x) i
  | CSet x r c v => CSet (f x) r c v
  | CSet1d x i v => CSet1d (f x) i v
  | CGetUnchecked x r c => CGetUnchecked (f x) r c
  | CGet1dUnchecked x i => CGet1dUnchecked (f x) i
  | CSetUnchecked x r c v => CSetUnchecked (f x) r c v
  | CSet1dUnchecked x i v => CSet1dUnchecked (f x) i v
  | CSliceRead x first last i => CSliceRead (f x) first last i
  | CSliceWrite x first last i v => CSliceWrite (f x) first last i v
  | CDim x => CDim (f x)
  | CLength x => CLength (f x)
  | CBlock mut x tl d => CBlock mut (f x) tl d
  | CSplit x at_ => CSplit (f x) at_
  | CFromRef x => CFromRef (f x)
  | CRefMut x => CRefMut (f x)
  | CScalarTimes s p x => CScalarTimes s p (f x)
  | CTimesScalar p x s => CTimesScalar p (f x) s
  | CPlus p q x y => CPlus p q (f x) (f y)
  | CEval x => CEval (f x)
  | CForEach x g s => CForEach (f x) g s
  | CFill x g s => CFill (f x) g s
  | CMatmul alpha a b beta c => CMatmul alpha (f a) (f b) beta (f c)
  | CDot shape a b => CDot shape (f a) (f b)
  | CZeros _ _ _ | CZerosFixed _ _ _ | CZerosFixedVector _ _ _ _ | CRowZeros _ | CColumnZeros _
  | CRowZerosDim _ _ | CColumnZerosDim _ _ | CFromVector _ _ _ _ | CFromArray _ _ _ _ => o
  end.
Definition refile (f : nat -> nat) (a : faction T St) : faction T St :=
  match a with
  | Act (Do o) => Act (Do (refile_call f o))
  | Act (Drop x) => Act (Drop (f x))
  | ScopeEnd x => ScopeEnd (f x)
  end.

(** The numbers that matrices of a thread have in a program with [n] matrices that handed it
    those numbered [xs]. *)
Definition filed (n : nat) (xs : list nat) (i : nat) : nat :=
  if Nat.ltb i (length xs) then nth i xs 0 else n + (i - length xs).
Definition thread_names (fs : fstate T) (who : nat -> list nat) (k : nat) : nat -> nat :=
  filed (length (st_mats (b_state (f_state fs)))) (who k).

(** No thread has a matrix in an allocation that another owns. *)
Definition kept_apart (p : pool T) (owner : nat -> option nat) : Prop :=
  (forall k x a, In x (p_tabs p k) -> In a (owned x) -> owner a = Some k) /\
  (forall k x a j, In x (p_tabs p k) -> lives_in a x -> owner a = Some j -> j = k).

(** What a thread owns is what it was handed by value. Such a matrix can be moved, and what
    the other threads were handed may then still be used: the borrow checker accepts a closure
    that captures it by value beside closures that capture the others
    (std::thread::scope, not part of this crate). *)
Definition hands_over (fs : fstate T) (who : nat -> list nat) (owner : nat -> option nat) : Prop :=
  (forall a k, owner a = Some k <->
     exists x v, In x (who k) /\ nth_error (st_mats (b_state (f_state fs))) x = Some v /\ In a (owned v)) /\
  (forall k x v, In x (who k) -> nth_error (st_mats (b_state (f_state fs))) x = Some v -> owned v <> [] ->
     exists bt, admit_uses (b_slots (f_state fs)) [(x, Moved)] = Some bt /\
       forall j y, j <> k -> In y (who j) -> is_live bt y = true).

End FlatScopes.
