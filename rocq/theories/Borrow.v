(** * Borrow: the histories that Rust's ownership rules admit.

    [Program] lets any matrix be used at any time. This file adds the rules of the
    Rust language. Each matrix of the table has a slot that says whether it may
    still be used and from which matrices it borrows, by the lifetimes in the
    signatures of the crate. A use of a matrix ends the loans that it conflicts
    with: a shared use ends the exclusive ones, an exclusive use and a move end all.
    What borrows from a matrix that has ended has ended. A call is admitted if all
    its operands may be used together. Every execution of a program that compiles
    is such a history; the borrow checker, which works before execution, rejects
    more. A value that is dropped or moved cannot be used any more. *)

From Verif Require Import Machine Layouts Memory Matrix MatMul Spec MatrixSpec ExprSpec ProductSpec Program HistorySpec.
Local Open Scope N_scope.

(** How a call takes an operand: [&x], [&mut x] or [x]. *)
Inductive access := Shared | Exclusive | Moved.

(** Whether the matrix may be used; the matrices it borrows from, and whether
    exclusively. [part] marks the four blocks of [split_in_four_mut] and what
    borrows from them. *)
Record slot := mkSlot { live : bool; loans : list (nat * bool); part : bool }.

Definition is_live (bt : list slot) (x : nat) : bool :=
  match nth_error bt x with Some s => live s | None => false end.
Definition loans_of (bt : list slot) (x : nat) : list (nat * bool) :=
  match nth_error bt x with Some s => loans s | None => [] end.
Definition is_part (bt : list slot) (x : nat) : bool :=
  match nth_error bt x with Some s => part s | None => false end.

(** A use of the lender ends the loan. *)
Definition conflict (a : access) (exclusive : bool) : bool :=
  exclusive || match a with Shared => false | _ => true end.

(** The slot survives a use of [x] if all its lenders do and none of its loans is
    in conflict with the use. Lenders come before borrowers in the table. *)
Definition survives (past : list slot) (x : nat) (a : access) (s : slot) : bool :=
  live s && forallb (fun l => is_live past (fst l) && negb (Nat.eqb (fst l) x && conflict a (snd l))) (loans s).
Fixpoint use_from (past : list slot) (x : nat) (a : access) (rest : list slot) : list slot :=
  match rest with
  | [] => past
  | s :: rest' => use_from (past ++ [mkSlot (survives past x a s) (loans s) (part s)]) x a rest'
  end.
Definition use (bt : list slot) (u : nat * access) : list slot := use_from [] (fst u) (snd u) bt.

(** A moved matrix has ended. *)
Fixpoint end_slot (bt : list slot) (x : nat) : list slot :=
  match bt, x with
  | [], _ => []
  | s :: bt', O => mkSlot false (loans s) (part s) :: bt'
  | s :: bt', S x' => s :: end_slot bt' x'
  end.
Definition end_moved (bt : list slot) (u : nat * access) : list slot :=
  match snd u with Moved => end_slot bt (fst u) | _ => bt end.

(** Two operands of a call may be the same matrix if both are shared. *)
Definition shared_use (a : access) : bool := match a with Shared => true | _ => false end.
Fixpoint no_conflict (us : list (nat * access)) : bool :=
  match us with
  | [] => true
  | u :: us' =>
      forallb (fun v => negb (Nat.eqb (fst u) (fst v)) || (shared_use (snd u) && shared_use (snd v))) us' &&
      no_conflict us'
  end.

(** The slots after the uses; [None] if the borrow checker rejects them. *)
Definition admit_uses (bt : list slot) (us : list (nat * access)) : option (list slot) :=
  let bt' := fold_left use us bt in
  if no_conflict us && forallb (fun u => is_live bt' (fst u)) us
  then Some (fold_left end_moved us bt') else None.

Section Borrow.
Context {T : Type} {SC : HScalar T} {St : Type}.
Variable kern : kernel T.

Definition passed_access (p : passed) : access := match p with ByValue => Moved | ByReference => Shared end.
Definition mut_access (mut : bool) : access := if mut then Exclusive else Shared.

(** How the calls take their operands: traits/random_access.rs:30-68 (get, get_mut and
    their variants), base_methods.rs:23 (for_each), 51 and 81 (slices), matrix_slices.rs:19-23
    and 48-52 (block, block_mut), 89-97 (split_in_four_mut), matrix.rs:129-131 (from_ref),
    matrix_ref.rs:75 (MatrixRefMut), scalar_mult.rs:117, 133, 147, 163, addition.rs:151,
    171, 191, 220, common_impl.rs:79, 101, 110, 119 (eval, dim, length), random.rs:22 (fill),
    matrix_multiply.rs:31 (dot), 52-58 (matmul); data_container.rs:125, 132 (slice containers). *)
Definition uses (o : call T St) : list (nat * access) :=
  match o with
  | CZeros _ _ _ | CZerosFixed _ _ _ | CZerosFixedVector _ _ _ _ | CRowZeros _ | CColumnZeros _
  | CRowZerosDim _ _ | CColumnZerosDim _ _ | CFromVector _ _ _ _ | CFromArray _ _ _ _ => []
  | CFromSlice mut x _ _ _ _ _ | CFromPointer mut _ x _ _ | CFromPointerStrided mut _ x _ _ _
  | CBlock mut x _ _ => [(x, mut_access mut)]
  | CGet x _ _ | CGet1d x _ | CGetUnchecked x _ _ | CGet1dUnchecked x _ | CSliceRead x _ _ _
  | CDim x | CLength x | CFromRef x | CEval x => [(x, Shared)]
  | CSet x _ _ _ | CSet1d x _ _ | CSetUnchecked x _ _ _ | CSet1dUnchecked x _ _ | CSliceWrite x _ _ _ _
  | CSplit x _ | CRefMut x | CForEach x _ _ | CFill x _ _ => [(x, Exclusive)]
  | CScalarTimes _ p x | CTimesScalar p x _ => [(x, passed_access p)]
  | CPlus p q x y => [(x, passed_access p); (y, passed_access q)]
  | CMatmul _ a b _ c => [(a, Shared); (b, Shared); (c, Exclusive)]
  | CDot _ a b => [(a, Shared); (b, Shared)]
  end.

(** What a returned matrix borrows by an operand: a reference borrows from the
    operand, a moved operand takes its own loans along. *)
Definition lent (bt : list slot) (u : nat * access) : list (nat * bool) :=
  match snd u with
  | Shared => [(fst u, false)]
  | Exclusive => [(fst u, true)]
  | Moved => loans_of bt (fst u)
  end.

Definition borrowing (bt : list slot) (us : list (nat * access)) : slot :=
  mkSlot true (flat_map (lent bt) us) (existsb (fun u => is_part bt (fst u)) us).

(** The slots of the matrices a call returns. The lifetime of what [from_pointer]
    returns is not tied to anything. *)
Definition returned (bt : list slot) (o : call T St) : list slot :=
  match o with
  | CBlock _ _ _ _ | CFromSlice _ _ _ _ _ _ _ | CFromRef _ | CRefMut _
  | CScalarTimes _ _ _ | CTimesScalar _ _ _ | CPlus _ _ _ _ => [borrowing bt (uses o)]
  | CSplit x _ => repeat (mkSlot true [(x, true)] true) 4
  | _ => [mkSlot true [] false]
  end.

Record bstate := mkBState { b_state : state T; b_slots : list slot }.
Definition binitial : bstate := mkBState initial [].

(** A step of a program: a call, or the end of the life of a matrix. *)
Inductive action := Do (o : call T St) | Drop (x : nat).

Definition bstep (m : mode) (bs : bstate) (a : action) : option (outcome (bstate * result T St)) :=
  match a with
  | Do o =>
      match admit_uses (b_slots bs) (uses o) with
      | None => None
      | Some bt =>
          Some ('(st, r) <- step kern m (b_state bs) o ;;
                Ok (mkBState st (match r with RNew => bt ++ returned (b_slots bs) o | _ => bt end), r))
      end
  | Drop x =>
      match admit_uses (b_slots bs) [(x, Moved)] with
      | None => None
      | Some bt => Some (Ok (mkBState (b_state bs) bt, RDone))
      end
  end.

(** A history; [None] if it is not admitted. *)
Fixpoint brun (m : mode) (bs : bstate) (acts : list action) : option (outcome (bstate * list (result T St))) :=
  match acts with
  | [] => Some (Ok (bs, []))
  | a :: acts' =>
      match bstep m bs a with
      | None => None
      | Some Panic => Some Panic
      | Some UB => Some UB
      | Some (Ok (bs1, r)) =>
          match brun m bs1 acts' with
          | None => None
          | Some o => Some ('(bs2, rs) <- o ;; Ok (bs2, r :: rs))
          end
      end
  end.

(** ** The vocabulary of the properties *)

(** [y] borrows from [x], maybe through others, or is [x]. *)
Inductive below (bt : list slot) (y : nat) : nat -> Prop :=
| below_refl : below bt y y
| below_loan : forall x z e, below bt y z -> In (x, e) (loans_of bt z) -> below bt y x.

(** The matrix number [x] may be used, and is [y]. *)
Definition usable (bs : bstate) (x : nat) (y : matrix T) : Prop :=
  is_live (b_slots bs) x = true /\ nth_error (st_mats (b_state bs)) x = Some y.

(** [q] is the cell of an entry of a leaf of [x]. *)
Fixpoint has_cell (x : matrix T) (q : nat * N) : Prop :=
  match x with
  | MBase b => exists p, stored (bm_layout b) p /\ q = entry_cell b p
  | MRef x | MRefMut x | MScalarMult x _ => has_cell x q
  | MAddition x y _ => has_cell x q \/ has_cell y q
  end.

(** The number of the matrix that an action writes to. *)
Definition written (a : action) : option nat :=
  match a with
  | Do (CSet x _ _ _) | Do (CSet1d x _ _) | Do (CSetUnchecked x _ _ _) | Do (CSet1dUnchecked x _ _)
  | Do (CSliceWrite x _ _ _ _) | Do (CForEach x _ _) | Do (CFill x _ _) => Some x
  | Do (CMatmul _ _ _ _ c) => Some c
  | _ => None
  end.

(** Some action of the history writes to [y] or to a matrix that borrows from it. *)
Fixpoint history_writes_below (m : mode) (bs : bstate) (acts : list action) (y : nat) : Prop :=
  match acts with
  | [] => False
  | a :: acts' =>
      (exists x, written a = Some x /\ below (b_slots bs) x y) \/
      match bstep m bs a with
      | Some (Ok (bs', _)) => history_writes_below m bs' acts' y
      | _ => False
      end
  end.

(** How often the memory of the allocation [a] is freed when [x] is dropped:
    vectors and arrays belong to their containers (data_container.rs:80-96),
    references and slices own nothing. *)
Fixpoint owners (a : nat) (x : matrix T) : nat :=
  match x with
  | MBase b =>
      match c_kind (bm_data b) with
      | VectorContainer | ArrayContainer => if Nat.eqb (allocation b) a then 1 else 0
      | _ => 0
      end
  | MRef _ | MRefMut _ => 0
  | MScalarMult x _ => owners a x
  | MAddition x y _ => owners a x + owners a y
  end.

(** No raw pointers. *)
Definition no_pointers (a : action) : Prop :=
  match a with
  | Do (CFromPointer _ _ _ _ _) | Do (CFromPointerStrided _ _ _ _ _ _) => False
  | _ => True
  end.

(** No split. *)
Definition no_split (a : action) : Prop := match a with Do (CSplit _ _) => False | _ => True end.

(** Calls that respect the entries of the four blocks of a split: neither slices
    nor, where [stride] does not tell the true strides, products into a part or
    blocks of several rows. *)
Definition respects_parts (bs : bstate) (o : call T St) : Prop :=
  let part x := is_part (b_slots bs) x = true in
  match o with
  | CSliceWrite x _ _ _ _ | CFromSlice _ x _ _ _ _ _ => ~ part x
  | CBlock _ x _ d =>
      part x -> forall b, lookup_base (b_state bs) x = Some b -> fst d = 1 \/ true_strides (bm_layout b)
  | CMatmul _ _ _ _ c =>
      part c -> forall b, lookup_base (b_state bs) c = Some b -> true_strides (bm_layout b)
  | _ => True
  end.

(** All calls are safe, compute no size beyond 2^64 - 1 in builds without overflow checks, and
    respect the parts. *)
Fixpoint well_behaved (m : mode) (bs : bstate) (acts : list action) : Prop :=
  match acts with
  | [] => True
  | a :: acts' =>
      match a with
      | Do o => safe_call o /\ (m = Checked \/ no_wrap_call (b_state bs) o) /\ respects_parts bs o
      | Drop _ => True
      end /\
      forall bs' r, bstep m bs a = Some (Ok (bs', r)) -> well_behaved m bs' acts'
  end.

End Borrow.
Arguments bstate T : clear implicits.
Arguments action T St : clear implicits.
