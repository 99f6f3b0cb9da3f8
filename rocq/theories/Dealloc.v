(** * Dealloc: histories in which memory is freed.

    [Memory] keeps every allocation for ever. This file adds Rust's destructors to
    the histories of [Borrow]. The crate implements [Drop] for none of its types, so
    a value that is destroyed destroys its fields: a vector frees its memory, the
    memory of an array ends with the array, references and slices free nothing
    (data_container.rs:80-96, base_matrix.rs:17-28, matrix.rs:103-115, matrix_ref.rs:24-28
    and 52-56, scalar_mult.rs:22-30, addition.rs:18-31).

    A value is destroyed when it is dropped, at the end of its scope, or by the
    unwinding if it was moved into a call that panics. A value that was moved into a
    matrix is destroyed with that matrix. Freed memory holds no items: every access
    to it is undefined behaviour, and so is freeing it again. Moving an array moves
    its memory along; the model keeps the number of the allocation. *)

From Verif Require Import Machine Layouts Memory Matrix MatMul Spec MatrixSpec ExprSpec ProductSpec Program HistorySpec Borrow.

Section Dealloc.
Context {T : Type} {SC : HScalar T} {St : Type}.
Variable kern : kernel T.
Notation heap := (@heap T).

(** The allocations freed by the destructor of a matrix, field by field. *)
Fixpoint owned (x : matrix T) : list nat :=
  match x with
  | MBase b =>
      match c_kind (bm_data b) with
      | VectorContainer | ArrayContainer => [r_alloc (c_region (bm_data b))]
      | SliceContainer | SliceContainerMut => []
      end
  | MRef _ | MRefMut _ => []
  | MScalarMult x _ => owned x
  | MAddition x y _ => owned x ++ owned y
  end.

(** The matrices whose value does not exist any more, because it was moved or
    destroyed, and the allocations that were freed. *)
Record fstate := mkFState { f_state : bstate T; f_gone : list nat; f_freed : list nat }.
Definition finitial : fstate := mkFState binitial [] [].

Definition mem (l : list nat) (x : nat) : bool := existsb (Nat.eqb x) l.

Definition set_heap (bs : bstate T) (h : heap) : bstate T :=
  mkBState (mkState h (st_mats (b_state bs))) (b_slots bs).

(** [dealloc] of one allocation. *)
Definition free (fs : fstate) (a : nat) : outcome fstate :=
  if mem (f_freed fs) a then UB
  else Ok (mkFState (set_heap (f_state fs) (upd (st_heap (b_state (f_state fs))) a [])) (f_gone fs) (a :: f_freed fs)).

Fixpoint free_all (fs : fstate) (l : list nat) : outcome fstate :=
  match l with [] => Ok fs | a :: l' => fs1 <- free fs a ;; free_all fs1 l' end.

(** The destructor of matrix number [x]. *)
Definition destroy (fs : fstate) (x : nat) : outcome fstate :=
  match nth_error (st_mats (b_state (f_state fs))) x with
  | Some v => free_all (mkFState (f_state fs) (x :: f_gone fs) (f_freed fs)) (owned v)
  | None => Ok fs
  end.

Fixpoint destroy_all (fs : fstate) (xs : list nat) : outcome fstate :=
  match xs with [] => Ok fs | x :: xs' => fs1 <- destroy fs x ;; destroy_all fs1 xs' end.

(** The operands an action takes by value. *)
Definition moved_operands (us : list (nat * access)) : list nat :=
  flat_map (fun u => match snd u with Moved => [fst u] | _ => [] end) us.
Definition moved (a : action T St) : list nat :=
  match a with Do o => moved_operands (uses o) | Drop x => [x] end.

(** A step of a program: an action, or the end of the scope of a matrix that exists
    and must not be used any more, because what it borrows from was used. *)
Inductive faction := Act (a : action T St) | ScopeEnd (x : nat).

Definition fstep (m : mode) (fs : fstate) (fa : faction) : option (outcome (fstate * list (result T St))) :=
  match fa with
  | Act a =>
      match bstep kern m (f_state fs) a with
      | None => None
      | Some o =>
          Some ('(bs, r) <- o ;;
                match r with
                | RNew => Ok (mkFState bs (moved a ++ f_gone fs) (f_freed fs), [r])
                | _ => fs' <- destroy_all (mkFState bs (f_gone fs) (f_freed fs)) (moved a) ;; Ok (fs', [r])
                end)
      end
  | ScopeEnd x =>
      if Nat.ltb x (length (st_mats (b_state (f_state fs)))) && negb (is_live (b_slots (f_state fs)) x) &&
         negb (mem (f_gone fs) x)
      then Some (fs' <- destroy fs x ;; Ok (fs', [])) else None
  end.

(** A history; [None] if it is not admitted. *)
Fixpoint frun (m : mode) (fs : fstate) (acts : list faction) : option (outcome (fstate * list (result T St))) :=
  match acts with
  | [] => Some (Ok (fs, []))
  | a :: acts' =>
      match fstep m fs a with
      | None => None
      | Some Panic => Some Panic
      | Some UB => Some UB
      | Some (Ok (fs1, r)) =>
          match frun m fs1 acts' with
          | None => None
          | Some o => Some ('(fs2, rs) <- o ;; Ok (fs2, r ++ rs))
          end
      end
  end.

(** ** The vocabulary of the property *)

(** The same history on a machine with unlimited memory. *)
Definition kept (acts : list faction) : list (action T St) :=
  flat_map (fun a => match a with Act a => [a] | ScopeEnd _ => [] end) acts.

(** The calls among them. *)
Definition calls (acts : list faction) : list (call T St) :=
  flat_map (fun a => match a with Act (Do o) => [o] | _ => [] end) acts.

(** Steps that only destroy. *)
Definition ending (a : faction) : Prop := match a with Act (Drop _) | ScopeEnd _ => True | _ => False end.

(** Memory that was not freed is the same. *)
Definition same_but (freed : list nat) (h h' : heap) : Prop :=
  length h' = length h /\ forall a, ~ In a freed -> nth_error h' a = nth_error h a.

Definition same_outcome (o : outcome (fstate * list (result T St))) (o' : outcome (bstate T * list (result T St))) : Prop :=
  match o, o' with
  | Ok (fs, rs), Ok (bs, rs') =>
      rs = rs' /\ st_mats (b_state (f_state fs)) = st_mats (b_state bs) /\ b_slots (f_state fs) = b_slots bs /\
      same_but (f_freed fs) (st_heap (b_state bs)) (st_heap (b_state (f_state fs)))
  | Panic, Panic | UB, UB => True
  | _, _ => False
  end.

(** The calls that allocate. *)
Definition allocates (o : call T St) : bool :=
  match o with
  | CZeros _ _ _ | CZerosFixed _ _ _ | CZerosFixedVector _ _ _ _ | CRowZeros _ | CColumnZeros _ | CRowZerosDim _ _
  | CColumnZerosDim _ _ | CFromVector _ _ _ _ | CFromArray _ _ _ _ | CEval _ | CDot _ _ _ => true
  | _ => false
  end.

(** How often an allocation is freed if all matrices that exist are destroyed. *)
Fixpoint still_owned (gone : list nat) (n : nat) (l : list (matrix T)) (a : nat) : nat :=
  match l with
  | [] => 0
  | x :: l' => (if mem gone n then 0 else owners a x) + still_owned gone (S n) l' a
  end.

End Dealloc.
Arguments fstate T : clear implicits.
Arguments faction T St : clear implicits.
