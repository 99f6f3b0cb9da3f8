(** * Property C63: the library with four checks and a truthful [stride].

    The model shows five causes of undefined behaviour in histories without a call of an
    [unsafe] function: a number of elements that wraps (C13), strides that do not fit (C10),
    empty blocks (C20), splits at a border (C38) and the wrong [stride] of strided matrices
    (C33). Guarded.v has the library without these. Here: nothing else is wrong. The
    functions of Guarded.v are not those of the code. *)

From Verif Require Import Machine Layouts Memory Matrix MatMul Spec MatrixSpec ExprSpec ProductSpec.
From Verif Require Import Program HistorySpec Abstract Repaired RepairedHistory Guarded GuardedProofs.
From Verif Require Import ZScalar Properties_Products Properties_Histories Properties_RepairedHistory.
Local Open Scope N_scope.

(** C63: no history without [unsafe] calls has undefined behaviour, whatever the build and
    the arguments. *)
Theorem C63_safe : forall (T : Type) (SC : HScalar T) (St : Type) kern m (os : list (call T St)),
  Forall no_unsafe os -> exists st rs, run_guarded kern m initial os = Ok (st, rs).
Proof. exact @c63_safe. Qed.
Print Assumptions C63_safe.

(** The builds do not differ. *)
Theorem C63_same_builds : forall (T : Type) (SC : HScalar T) (St : Type) kern m (os : list (call T St)),
  Forall no_unsafe os -> run_guarded kern m initial os = run_guarded kern Checked initial os.
Proof. exact @c63_same. Qed.
Print Assumptions C63_same_builds.

(** The checks refuse nothing that the build with overflow checks accepts: without empty
    blocks and without strides from the user it is the machine of C62 in this build. *)
Theorem C63_conservative : forall (T : Type) (SC : HScalar T) (St : Type) kern m (os : list (call T St)),
  Forall safe_call os -> run_guarded kern m initial os = run_with repaired_stride kern Checked initial os.
Proof. exact @c63_conservative. Qed.
Print Assumptions C63_conservative.

(** So it is a refinement of matrices as mathematical objects in the scope of C62, in both
    builds, including histories with panics. *)
Theorem C63_refines : forall (T : Type) (SC : HScalar T) (St : Type) kern m (os : list (call T St)),
  ignores_strides kern -> Forall no_unsafe os -> history_in_wider_scope kern ainitial os ->
  exists st, run_guarded kern m initial os = Ok (st, snd (arun kern ainitial os)) /\
             same_tables st (fst (arun kern ainitial os)).
Proof. exact @c63_refines. Qed.
Print Assumptions C63_refines.

(** What the checks refuse, what they accept: each kind of bad argument, then the largest
    good one; overlapping strides 1, 1; a transposed matrix; a vector with a stride. *)
Definition ex_guarded : list (call Z nat) :=
  [ CZeros KRowMajor (2 ^ 32) (2 ^ 32); CZeros KUpperTriangular (2 ^ 32) (2 ^ 32); CZeros KRowMajor 3 4;
    CForEach 0 (fun s _ => (S s, Z.of_nat s, false)) 1%nat;
    CBlock true 0 (3, 4) (0, 0); CBlock true 0 (0, 0) (0, 2); CBlock true 0 (1, 1) (3, 1);
    CBlock true 0 (2 ^ 62, 0) (3 * 2 ^ 62, 4); CBlock true 0 (1, 1) (2, 3);
    CSplit 0 (0, 2); CSplit 0 (3, 2); CSplit 0 (1, 4); CSplit 0 (1, 3);
    CFromVector Dynamic Dynamic 9 (ArbitraryStrideRowMajor (2, 2) (100, 1));
    CFromVector Dynamic Dynamic 9 (ArbitraryStrideRowMajor (2, 2) (1, 1));
    CFromVector Dynamic Dynamic 9 (ArbitraryStrideRowMajor (3, 2) (2 ^ 63, 1));
    CFromVector Dynamic Dynamic 9 (ArbitraryStrideRowMajor (2, 4) (5, 1));
    CFromVector Dynamic Dynamic 9 (ArbitraryStrideRowMajor (3, 2) (1, 5));
    CFromSlice true 0 1 12 Dynamic Fixed1 (ArbitraryStrideColumnVector 4 3);
    CGet 1 1 2; CGet 5 1 0; CGet1d 8 3; CGet1d 8 4; CBlock false 7 (1, 0) (2, 2); CGet 9 1 1 ].

Example C63_example : Forall no_unsafe ex_guarded /\
  results (run_guarded ex_kernel Wrapping initial ex_guarded) = Some
    [RPanicked; RPanicked; RNew; RLoop 13%nat false; RPanicked; RPanicked; RPanicked; RPanicked; RNew;
     RPanicked; RPanicked; RPanicked; RNew; RPanicked; RPanicked; RPanicked; RNew; RNew; RNew;
     RItem 12%Z; RItem 12%Z; RItem 11%Z; RPanicked; RNew; RItem 0%Z].
Proof.
  split; [repeat constructor|]. vm_compute. reflexivity.
Qed.

(** Each check is needed, in the build in which it is. *)
Theorem C63_checks_needed :
  run_with repaired_stride ex_kernel Wrapping initial
    [CZeros KRowMajor (2 ^ 32) (2 ^ 32); CGet 0 0 0 : call Z nat] = UB /\
  run_with repaired_stride ex_kernel Checked initial
    [CFromVector Dynamic Dynamic 9 (ArbitraryStrideRowMajor (2, 2) (100, 1)); CGet 0 1 1 : call Z nat] = UB /\
  run_with repaired_stride ex_kernel Checked initial
    [CZeros KRowMajor 3 4; CBlock false 0 (3, 4) (0, 0) : call Z nat] = UB /\
  run_with repaired_stride ex_kernel Wrapping initial
    [CZeros KRowMajor 3 4; CSplit 0 (3, 2) : call Z nat] = UB.
Proof. vm_compute. auto. Qed.
Print Assumptions C63_checks_needed.

(** The history of C62 meets the conditions of the last two theorems. *)
Example C63_narrow_example : ignores_strides ex_kernel /\ Forall no_unsafe ex_narrow /\ Forall safe_call ex_narrow /\
  history_in_wider_scope ex_kernel ainitial ex_narrow /\
  results (run_guarded ex_kernel Wrapping initial ex_narrow) = Some (snd (arun ex_kernel ainitial ex_narrow)).
Proof.
  destruct C62_example as (H1 & H2 & _).
  split; [exact H1|]. split; [repeat constructor|].
  split; [unfold ex_narrow; repeat constructor; discriminate|]. split; [exact H2|]. vm_compute. reflexivity.
Qed.
