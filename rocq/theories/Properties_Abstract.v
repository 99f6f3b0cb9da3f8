(** * Property C43: histories of calls against matrices as mathematical objects.

    The reference machine is in Abstract.v: matrices are functions on positions,
    blocks are windows. *)

From Coq Require Import Lia.
From Verif Require Import Machine Layouts Memory Matrix MatMul Spec MatrixSpec ExprSpec ProductSpec.
From Verif Require Import Program HistorySpec Abstract AbstractProofs.
From Verif Require Import ZScalar Properties_Products Properties_Histories.
Local Open Scope N_scope.

(** C43: the full statement is the theorem for all histories of dense matrices,
    blocks, expressions and products. It is false without [history_in_scope], see
    the witnesses below. In scope are all constructors of zeros, upper triangular
    matrices included (but [zeros_from_dim] of a column vector, see C14), constructors
    from containers of any size with a dense layout, reads and writes with arbitrary
    arguments (the unchecked ones inside the matrix), slices of matrices, expressions,
    evaluation, loops, splits, blocks of owned matrices of any position and non-empty
    dimension, blocks of blocks that keep to their rows, and products of operands
    whose entries are consecutive. Matrices made from slices and raw pointers are not.
    Each call returns what the abstract machine returns, including panics, and the
    tables of matrices agree in the end. *)
Theorem C43_histories_partial : forall (T : Type) (SC : HScalar T) (St : Type) kern (os : list (call T St)),
  ignores_strides kern -> history_in_scope kern ainitial os ->
  exists st, run kern Checked initial os = Ok (st, snd (arun kern ainitial os)) /\
             same_tables st (fst (arun kern ainitial os)).
Proof. exact @c43. Qed.
Print Assumptions C43_histories_partial.

(** Without overflow checks: if no call panics. *)
Theorem C43_release_partial : forall (T : Type) (SC : HScalar T) (St : Type) kern (os : list (call T St)),
  ignores_strides kern -> history_in_scope kern ainitial os ->
  Forall completed (snd (arun kern ainitial os)) ->
  exists st, run kern Wrapping initial os = Ok (st, snd (arun kern ainitial os)) /\
             same_tables st (fst (arun kern ainitial os)).
Proof. exact @c43_release. Qed.
Print Assumptions C43_release_partial.

(** Or, panics included, if no size exceeds 2^64 - 1. *)
Theorem C43_no_wrap_partial : forall (T : Type) (SC : HScalar T) (St : Type) kern (os : list (call T St)),
  ignores_strides kern -> history_in_scope kern ainitial os -> no_wrap_history kern Checked initial os ->
  exists st, run kern Wrapping initial os = Ok (st, snd (arun kern ainitial os)) /\
             same_tables st (fst (arun kern ainitial os)).
Proof. exact @c43_no_wrap. Qed.
Print Assumptions C43_no_wrap_partial.

(** The histories of C37, then a block of two full rows, a single row of another
    block, two products with them and reads; at the end the panics. *)
Definition ex_products : list (call Z nat) :=
  ex_history ++
  [ CBlock true 0 (1, 0) (2, 4); CZeros KColumnMajor 4 2; CSet 11 3 1 7%Z; CDot MatrixMatrix 10 11;
    CGet 12 0 1; CMatmul 2%Z 10 11 3%Z 5; CGet 5 1 1; CBlock false 2 (1, 0) (1, 2);
    CDot MatrixMatrix 13 5; CGet 14 0 1; CGet1d 14 2; CBlock true 0 (2, 2) (2, 1);
    CMatmul 1%Z 10 5 1%Z 11 ].

Ltac known E := vm_compute in E; injection E as <-.
Ltac placed := first [left; reflexivity | right; intros a E; vm_compute in E; injection E as <-; cbn; lia].
Ltac in_scope_by_computation :=
  lazymatch goal with
  | |- in_scope _ (CZeros _ _ _) => lazy beta iota delta [in_scope]; discriminate
  | |- in_scope _ (CFromVector _ _ _ _) => lazy; repeat split; discriminate
  | |- in_scope _ (CFromArray _ _ _ _) => lazy; repeat split; discriminate
  | |- in_scope _ (CSliceRead _ _ _ _) =>
      lazy beta iota delta [in_scope]; intros w E; known E; split; [reflexivity|vm_compute; first [reflexivity | discriminate]]
  | |- in_scope _ (CSliceWrite _ _ _ _ _) =>
      lazy beta iota delta [in_scope]; intros w E; known E; split; [reflexivity|vm_compute; first [reflexivity | discriminate]]
  | |- in_scope _ (CGetUnchecked _ _ _) =>
      lazy beta iota delta [in_scope]; intros w E; known E; split; [split; reflexivity|discriminate]
  | |- in_scope _ (CBlock _ _ _ _) =>
      lazy beta iota delta [in_scope]; split; [split; discriminate|]; intros w E; known E; placed
  | |- in_scope _ (CDot _ _ _) =>
      lazy beta iota delta [in_scope]; intros u v E1 E2 E; known E1; known E2;
      first [vm_compute in E; discriminate E | clear E; split; placed]
  | |- in_scope _ (CMatmul _ _ _ _ _) =>
      lazy beta iota delta [in_scope]; intros u v w E1 E2 E3 _; known E1; known E2; known E3;
      split; [placed|]; split; [placed|]; split; [placed|]; split; intros p q _ _ E; discriminate E
  | |- _ => exact I
  end.

Example C43_example : ignores_strides ex_kernel /\
  history_in_scope ex_kernel ainitial ex_products /\
  snd (arun ex_kernel ainitial ex_products) =
    [RNew; RLoop 12%nat false; RNew; RDone; RNew; RNew; RNew; RNew; RItem 27%Z; RNew; RDone; RItem 100%Z] ++
    [RNew; RNew; RDone; RNew; RItem 49%Z; RDone; RItem 244%Z; RNew; RNew; RItem 3808%Z; RPanicked; RPanicked; RPanicked].
Proof.
  split; [intros sh sh' _ _ _; reflexivity|]. split; [|reflexivity].
  unfold ex_products, ex_history. cbn [app history_in_scope].
  repeat (split; [solve [in_scope_by_computation]|]). exact I.
Qed.

(** Triangular matrices, containers with spare room, slices. *)
Definition ex_containers : list (call Z nat) :=
  [ CZeros KUpperTriangular 3 3; CForEach 0 (fun s _ => (S s, Z.of_nat s, false)) 1%nat; CGet 0 0 2; CGet 0 2 0;
    CGet1d 0 0; CGetUnchecked 0 1 2; CScalarTimes 10%Z ByReference 0; CPlus ByReference ByValue 0 1; CEval 2;
    CGet 3 1 1; CGet1d 3 6; CZeros KUpperTriangular 2 3; CSliceWrite 3 2 6 1 100%Z; CGet 3 0 0; CSliceRead 0 1 3 1;
    CFromVector Dynamic Dynamic 10 (ColumnMajor (2, 3)); CSliceWrite 4 3 6 2 7%Z; CGet 4 1 2; CSliceRead 4 3 11 0;
    CFromArray Fixed2 Fixed2 3 (RowMajor (2, 2)); CFromVector Fixed1 Dynamic 4 (RowVector 3); CDot RowMatrix 5 4;
    CZeros KRowVector 1 5; CZeros KRowVector 2 5; CEval 6; CDim 7; CDot MatrixMatrix 0 4; CBlock true 0 (0, 0) (1, 1) ].

Example C43_containers_example : history_in_scope ex_kernel ainitial ex_containers /\
  snd (arun ex_kernel ainitial ex_containers) =
    [RNew; RLoop 7%nat false; RItem 6%Z; RPanicked; RItem 1%Z; RItem 3%Z; RNew; RNew; RNew;
     RItem 22%Z; RPanicked; RPanicked; RDone; RItem 100%Z; RItem 3%Z;
     RNew; RDone; RItem 7%Z; RPanicked; RPanicked; RNew; RPanicked; RNew; RPanicked; RNew; RDim (1, 5);
     RSkipped; RSkipped].
Proof.
  split; [|vm_compute; reflexivity]. unfold ex_containers. cbn [history_in_scope].
  repeat (split; [solve [in_scope_by_computation]|]). exact I.
Qed.

(** Column-major matrices: a single column, a block of full height and blocks of both. *)
Definition ex_columns : list (call Z nat) :=
  [ CZeros KColumnMajor 3 4; CForEach 0 (fun s _ => (S s, Z.of_nat s, false)) 1%nat;
    CBlock false 0 (1, 2) (2, 1); CBlock false 0 (0, 1) (3, 2); CBlock false 2 (1, 0) (2, 2); CBlock false 3 (1, 1) (1, 1);
    CBlock false 1 (1, 0) (1, 1); CGet 3 1 1; CGet 4 0 0; CGet 5 0 0; CDot MatrixMatrix 1 4; CGet 6 1 0;
    CZeros KRowMajor 2 2; CSet 7 0 1 10%Z; CDot MatrixMatrix 2 7; CGet 8 2 1 ].

Example C43_columns_example : history_in_scope ex_kernel ainitial ex_columns /\
  snd (arun ex_kernel ainitial ex_columns) =
    [RNew; RLoop 13%nat false; RNew; RNew; RNew; RNew; RNew; RItem 9%Z; RItem 9%Z; RItem 9%Z; RNew; RItem 81%Z;
     RNew; RDone; RNew; RItem 60%Z].
Proof.
  split; [|vm_compute; reflexivity]. unfold ex_columns. cbn [history_in_scope].
  repeat (split; [solve [in_scope_by_computation]|]). exact I.
Qed.

Example C43_no_wrap_example : no_wrap_history ex_kernel Checked initial ex_products.
Proof.
  unfold ex_products, ex_history. cbn [app].
  repeat (split; [first [exact I | repeat split; first [reflexivity | discriminate]
                        | intros b E; injection E as <-; repeat split; cbn; discriminate
                        | intros a b E E'; injection E as <-; injection E' as <-; reflexivity]
                 | intros st r E; vm_compute in E; injection E as <- <-]).
  exact I.
Qed.

(** Blocks of blocks: the block of a view that does not have full width is another
    window (see C19). *)
Theorem C43_nested_block_refuted : exists os : list (call Z nat),
  Forall (fun o => match o with CZeros _ _ _ | CSet _ _ _ _ | CBlock _ _ _ _ | CGet _ _ _ => True | _ => False end) os /\
  Forall completed (snd (arun ex_kernel ainitial os)) /\
  results (run ex_kernel Checked initial os) <> Some (snd (arun ex_kernel ainitial os)).
Proof.
  exists [CZeros KRowMajor 3 4; CSet 0 2 1 5%Z; CBlock false 0 (0, 1) (3, 2); CBlock false 1 (1, 0) (2, 2); CGet 2 1 0].
  split; [repeat constructor|]. split; [repeat constructor|]. vm_compute. discriminate.
Qed.
Print Assumptions C43_nested_block_refuted.

(** Products of blocks that do not have full width (see C32). *)
Theorem C43_product_of_block_refuted : exists os : list (call Z nat),
  Forall (fun o => match o with CZeros _ _ _ | CSet _ _ _ _ | CBlock _ _ _ _ | CGet _ _ _ | CDot _ _ _ => True
                   | _ => False end) os /\
  Forall completed (snd (arun ex_kernel ainitial os)) /\
  results (run ex_kernel Checked initial os) <> Some (snd (arun ex_kernel ainitial os)).
Proof.
  exists [CZeros KRowMajor 2 3; CSet 0 1 0 5%Z; CBlock false 0 (0, 0) (2, 2); CZeros KRowMajor 2 2; CSet 2 0 0 1%Z;
          CDot MatrixMatrix 1 2; CGet 3 1 0].
  split; [repeat constructor|]. split; [repeat constructor|]. vm_compute. discriminate.
Qed.
Print Assumptions C43_product_of_block_refuted.

(** Empty blocks: as a window such a block is as good as any other; the code has
    undefined behaviour or panics (see C20). *)
Theorem C43_empty_block_refuted : exists os : list (call Z nat),
  Forall (fun o => match o with CZeros _ _ _ | CBlock _ _ _ _ => True | _ => False end) os /\
  Forall completed (snd (arun ex_kernel ainitial os)) /\
  results (run ex_kernel Checked initial os) <> Some (snd (arun ex_kernel ainitial os)).
Proof.
  exists [CZeros KRowMajor 3 4; CBlock false 0 (1, 1) (0, 2)].
  split; [repeat constructor|]. split; [repeat constructor|]. vm_compute. discriminate.
Qed.
Print Assumptions C43_empty_block_refuted.

(** Column vectors by dimension (see C14). *)
Theorem C43_column_vector_refuted : exists os : list (call Z nat),
  Forall (fun o => match o with CZeros _ _ _ => True | _ => False end) os /\
  Forall completed (snd (arun ex_kernel ainitial os)) /\
  results (run ex_kernel Checked initial os) <> Some (snd (arun ex_kernel ainitial os)).
Proof.
  exists [CZeros KColumnVector 3 1].
  split; [repeat constructor|]. split; [repeat constructor|]. vm_compute. discriminate.
Qed.
Print Assumptions C43_column_vector_refuted.
