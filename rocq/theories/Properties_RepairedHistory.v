(** * Property C62: whole histories of the library with a truthful [stride].

    C58 looks at single calls. Here the machine with [repaired_stride] refines the machine
    of matrices as mathematical objects (Abstract.v) for all histories, without the
    conditions of C43 on blocks of narrow blocks and products of narrow blocks. The functions
    with [repaired_stride] are not those of the code. *)

From Coq Require Import Lia.
From Verif Require Import Machine Layouts Memory Matrix MatMul Spec MatrixSpec ExprSpec ProductSpec.
From Verif Require Import Program HistorySpec Abstract Repaired RepairedHistory RepairedHistoryProofs.
From Verif Require Import ZScalar Properties_Products Properties_Histories Properties_Abstract.
Local Open Scope N_scope.

(** With [stride] the machine is that of the model, and the conditions are weaker than those
    of C43. *)
Theorem C62_same : forall (T : Type) (SC : HScalar T) (St : Type) kern m (os : list (call T St)) st,
  run_with stride kern m st os = run kern m st os.
Proof. exact @run_with_same. Qed.
Print Assumptions C62_same.

Theorem C62_wider : forall (T : Type) (SC : HScalar T) (St : Type) kern (os : list (call T St)) st,
  history_in_scope kern st os -> history_in_wider_scope kern st os.
Proof. exact @wider_history. Qed.
Print Assumptions C62_wider.

(** C62: each call returns what the abstract machine returns, including panics, and the
    tables of matrices agree in the end. *)
Theorem C62_histories : forall (T : Type) (SC : HScalar T) (St : Type) kern (os : list (call T St)),
  ignores_strides kern -> history_in_wider_scope kern ainitial os ->
  exists st, run_with repaired_stride kern Checked initial os = Ok (st, snd (arun kern ainitial os)) /\
             same_tables st (fst (arun kern ainitial os)).
Proof. exact @c62. Qed.
Print Assumptions C62_histories.

Theorem C62_release : forall (T : Type) (SC : HScalar T) (St : Type) kern (os : list (call T St)),
  ignores_strides kern -> history_in_wider_scope kern ainitial os ->
  Forall completed (snd (arun kern ainitial os)) ->
  exists st, run_with repaired_stride kern Wrapping initial os = Ok (st, snd (arun kern ainitial os)) /\
             same_tables st (fst (arun kern ainitial os)).
Proof. exact @c62_release. Qed.
Print Assumptions C62_release.

(** A block of a narrow block; a product of narrow blocks into a narrow block of another
    matrix; products into one half of a matrix from the other half. The model of the code
    returns something else. *)
Definition ex_narrow : list (call Z nat) :=
  [ CZeros KRowMajor 4 6; CForEach 0 (fun s _ => (S s, Z.of_nat s, false)) 1%nat;
    CBlock true 0 (0, 1) (4, 3); CBlock false 1 (1, 1) (2, 2); CGet 2 0 0; CGet 2 1 1;
    CBlock false 0 (1, 0) (2, 2); CDot MatrixMatrix 2 3; CGet 4 1 0;
    CZeros KColumnMajor 5 5; CBlock true 5 (1, 2) (3, 3); CBlock true 6 (1, 0) (2, 2);
    CMatmul 1%Z 2 3 0%Z 7; CGet 5 3 2; CBlock true 0 (1, 4) (2, 2); CMatmul 1%Z 3 2 1%Z 8; CGet 0 2 5;
    CDot MatrixMatrix 2 1; CBlock true 1 (2, 2) (3, 1) ].

Ltac in_wider_scope_by_computation :=
  lazymatch goal with
  | |- in_wider_scope _ (CBlock _ _ _ _) => split; discriminate
  | |- in_wider_scope _ (CMatmul _ _ _ _ _) =>
      lazy beta iota delta [in_wider_scope]; intros u v w E1 E2 E3 _; known E1; known E2; known E3;
      split; intros [p0 p1] [q0 q1] [P0 P1] [Q0 Q1] E; cbn [fst snd w_dim w_matrix] in *; try discriminate E;
      unfold shift; cbn [fst snd w_origin]; intros E'; pose proof (f_equal fst E'); pose proof (f_equal snd E'); cbn [fst snd] in *; lia
  | |- in_wider_scope _ (CZeros _ _ _) => discriminate
  | |- _ => exact I
  end.

Example C62_example : ignores_strides ex_kernel /\
  history_in_wider_scope ex_kernel ainitial ex_narrow /\
  snd (arun ex_kernel ainitial ex_narrow) =
    [RNew; RLoop 25%nat false; RNew; RNew; RItem 9%Z; RItem 16%Z; RNew; RNew; RItem (15 * 7 + 16 * 13)%Z;
     RNew; RNew; RNew; RDone; RItem (15 * 7 + 16 * 13)%Z; RNew; RDone; RItem (18 + 13 * 10 + 14 * 16)%Z;
     RPanicked; RPanicked] /\
  results (run ex_kernel Checked initial ex_narrow) <> Some (snd (arun ex_kernel ainitial ex_narrow)).
Proof.
  split; [intros sh sh' _ _ _; reflexivity|]. split.
  { unfold ex_narrow. cbn [history_in_wider_scope].
    repeat (split; [solve [in_wider_scope_by_computation]|]). exact I. }
  split; [vm_compute; reflexivity|]. vm_compute. discriminate.
Qed.

(** The conditions that remain are needed: empty blocks, column vectors by dimension and
    products into a matrix that overlaps an operand. *)
Theorem C62_scope_needed :
  (exists os : list (call Z nat), Forall completed (snd (arun ex_kernel ainitial os)) /\
     os = [CZeros KRowMajor 3 4; CBlock false 0 (1, 1) (0, 2)] /\
     results (run_with repaired_stride ex_kernel Checked initial os) <> Some (snd (arun ex_kernel ainitial os))) /\
  (exists os : list (call Z nat), Forall completed (snd (arun ex_kernel ainitial os)) /\
     os = [CZeros KColumnVector 3 1] /\
     results (run_with repaired_stride ex_kernel Checked initial os) <> Some (snd (arun ex_kernel ainitial os))) /\
  (exists os : list (call Z nat), Forall completed (snd (arun ex_kernel ainitial os)) /\
     os = [CZeros KRowMajor 2 2; CForEach 0 (fun s _ => (S s, Z.of_nat s, false)) 1%nat; CMatmul 1%Z 0 0 0%Z 0; CGet 0 1 1] /\
     results (run_with repaired_stride ex_kernel Checked initial os) <> Some (snd (arun ex_kernel ainitial os))).
Proof.
  split; [|split]; eexists; (split; [|split; [reflexivity|]]); try (repeat constructor); vm_compute; discriminate.
Qed.
Print Assumptions C62_scope_needed.
