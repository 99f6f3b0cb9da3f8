(** * AdmitSpec: what the ownership rules of Rust ask of a call. *)

From Verif Require Import Machine Layouts Memory Matrix MatMul ExprSpec ProductSpec Program Borrow.

(** The use [u] of a matrix ends the matrix [y]: [y] is, or borrows through others from, a
    matrix that borrows exclusively from the one used, or borrows from it at all if it is
    used exclusively or moved. *)
Definition ended_by (bt : list slot) (u : nat * access) (y : nat) : Prop :=
  exists z exclusive, below bt y z /\ In (fst u, exclusive) (loans_of bt z) /\
    (exclusive = true \/ snd u <> Shared).

(** The same matrix may be passed twice only by [&]. *)
Definition compatible_uses (us : list (nat * access)) : Prop :=
  forall i j x a b, nth_error us i = Some (x, a) -> nth_error us j = Some (x, b) -> i <> j -> a = Shared /\ b = Shared.

(** All operands exist and have not ended, are compatible, and none is ended by the use of
    another. *)
Definition admissible (bt : list slot) (us : list (nat * access)) : Prop :=
  (forall x a, In (x, a) us -> is_live bt x = true) /\ compatible_uses us /\
  forall u v, In u us -> In v us -> ~ ended_by bt u (fst v).

(** Calls that create a matrix or only read: constructors, getters, read-only slices and
    views, lazy expressions made from references, eval and dot. *)
Definition reads_only {T St : Type} (o : call T St) : Prop :=
  match o with
  | CZeros _ _ _ | CZerosFixed _ _ _ | CZerosFixedVector _ _ _ _ | CRowZeros _ | CColumnZeros _
  | CRowZerosDim _ _ | CColumnZerosDim _ _ | CFromVector _ _ _ _ | CFromArray _ _ _ _ => True
  | CFromSlice mut _ _ _ _ _ _ | CFromPointer mut _ _ _ _ | CFromPointerStrided mut _ _ _ _ _
  | CBlock mut _ _ _ => mut = false
  | CGet _ _ _ | CGet1d _ _ | CGetUnchecked _ _ _ | CGet1dUnchecked _ _ | CSliceRead _ _ _ _
  | CDim _ | CLength _ | CFromRef _ | CEval _ => True
  | CScalarTimes _ p _ | CTimesScalar p _ _ => p = ByReference
  | CPlus p q _ _ => p = ByReference /\ q = ByReference
  | CDot _ _ _ => True
  | _ => False
  end.
