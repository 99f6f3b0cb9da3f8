(** * Properties C37 - C40 and C44 - C46: histories of calls.

    A history is a list of calls on a table of matrices (Program.v); [kern] is
    an arbitrary gemm routine and [St] an arbitrary type of closure states. *)

From Coq Require Import Lia.
From Verif Require Import Machine Layouts Memory Matrix MatMul Spec MatrixSpec ExprSpec ProductSpec.
From Verif Require Import AccessProofs BlockProofs Program HistorySpec ModeProofs HistoryProofs HistorySafety ModeSafety.
From Verif Require Import ZScalar Properties_Products.
Local Open Scope N_scope.

(** What the calls of a history returned. *)
Definition results {T St : Type} (o : outcome (state T * list (result T St))) : option (list (result T St)) :=
  match o with Ok (_, rs) => Some rs | _ => None end.

(** Two dense matrices, a loop that fills the first, a write to the second, a block
    of the first and the expression block + 2 * block, its evaluation, a read, a
    split, a write to the last quarter and a read through the block. *)
Definition ex_history : list (call Z nat) :=
  [ CZeros KRowMajor 3 4; CForEach 0 (fun n _ => (S n, Z.of_nat n, false)) 0%nat;
    CZeros KColumnMajor 2 2; CSet 1 0 1 5%Z; CBlock true 0 (1, 1) (2, 2);
    CScalarTimes 2%Z ByValue 2; CPlus ByValue ByReference 2 3; CEval 4; CGet 5 1 0;
    CSplit 0 (1, 1); CSet 9 0 0 100%Z; CGet 2 0 0 ].

(** The same with panics: a read outside, a block outside, a split at the border
    and a product of matrices that do not fit. *)
Definition ex_panics : list (call Z nat) :=
  ex_history ++ [ CGet 5 2 0; CBlock false 0 (1, 1) (9, 9); CSplit 0 (3, 1); CMatmul 1%Z 0 1 0%Z 1 ].

(** C37: one call and histories. *)
Theorem C37_calls : forall (T : Type) (SC : HScalar T) (St : Type) kern (o : call T St) st st' r,
  completed r -> step kern Checked st o = Ok (st', r) ->
  forall m, step kern m st o = Ok (st', r).
Proof. intros T SC St kern o. exact (agrees_step kern o). Qed.
Print Assumptions C37_calls.

Theorem C37_histories : forall (T : Type) (SC : HScalar T) (St : Type) kern (os : list (call T St)) st st' rs,
  run kern Checked st os = Ok (st', rs) -> Forall completed rs ->
  forall m, run kern m st os = Ok (st', rs).
Proof. exact @c37_run. Qed.
Print Assumptions C37_histories.

Example C37_example :
  results (run ex_kernel Checked initial ex_history) =
    Some [RNew; RLoop 12%nat false; RNew; RDone; RNew; RNew; RNew; RNew; RItem 27%Z; RNew; RDone; RItem 100%Z] /\
  Forall completed
    [RNew; RLoop 12%nat false; RNew; RDone; RNew; RNew; RNew; RNew; RItem 27%Z; RNew; RDone; RItem 100%Z].
Proof. split; [reflexivity | repeat constructor]. Qed.

(** The hypothesis that no call panics is needed: with overflow checks the call
    panics, without them it returns a view. *)
Theorem C37_panic_witness : exists (os : list (call Z nat)) rs rs',
  results (run ex_kernel Checked initial os) = Some rs /\
  results (run ex_kernel Wrapping initial os) = Some rs' /\ rs <> rs'.
Proof.
  exists [CZeros KRowMajor 3 4; CBlock true 0 (2 ^ 62, 0) (3 * 2 ^ 62, 4)].
  eexists. eexists. split; [reflexivity|]. split; [reflexivity|]. discriminate.
Qed.
Print Assumptions C37_panic_witness.

(** C38: the full statement is the theorem without [safe_call]'s restriction to
    non-empty blocks; it is false, see the witness below. With overflow checks every
    history of safe calls runs to its end: no call has undefined behaviour, and what
    it leaves is a table of matrices that can be read at each of their positions. *)
Theorem C38_histories_partial : forall (T : Type) (SC : HScalar T) (St : Type) kern (os : list (call T St)),
  Forall safe_call os -> exists st rs, run kern Checked initial os = Ok (st, rs).
Proof. exact @c38. Qed.
Print Assumptions C38_histories_partial.

Theorem C38_reads_partial : forall (T : Type) (SC : HScalar T) (St : Type) kern (os : list (call T St)) st rs,
  Forall safe_call os -> run kern Checked initial os = Ok (st, rs) ->
  forall n x, nth_error (st_mats st) n = Some x -> forall r c,
    (stored (mat_layout x) (r, c) ->
     returns_entry (get Checked (st_heap st) x r c) (entry (st_heap st) x (r, c))) /\
    (~ stored (mat_layout x) (r, c) -> panics (get Checked (st_heap st) x r c)).
Proof. exact @c38_reads. Qed.
Print Assumptions C38_reads_partial.

Example C38_example : Forall safe_call ex_panics /\
  results (run ex_kernel Checked initial ex_panics) =
    Some [RNew; RLoop 12%nat false; RNew; RDone; RNew; RNew; RNew; RNew; RItem 27%Z; RNew; RDone; RItem 100%Z;
          RPanicked; RPanicked; RPanicked; RPanicked].
Proof. split; [|reflexivity]. repeat constructor; cbn; try discriminate; auto. Qed.

(** An empty block beyond the end of the container: the pointer to its first
    entry is out of bounds. *)
Theorem C38_empty_block_refuted : exists os : list (call Z nat),
  os = [CZeros KRowMajor 3 4; CBlock true 0 (3, 4) (0, 0)] /\
  run ex_kernel Checked initial os = UB.
Proof. eexists. split; reflexivity. Qed.
Print Assumptions C38_empty_block_refuted.

(** Exactly the empty blocks are missing: a history of safe calls, with blocks of any size,
    has undefined behaviour if and only if it requests an empty block that lies inside of
    the matrix but starts beyond the end of its container; every other one runs to its end. *)
Theorem C38_exact_partial : forall (T : Type) (SC : HScalar T) (St : Type) kern (os : list (call T St)),
  Forall safe_or_block os ->
  (run kern Checked initial os = UB <-> history_overshoots kern Checked initial os) /\
  (~ history_overshoots kern Checked initial os -> exists st rs, run kern Checked initial os = Ok (st, rs)).
Proof. exact @c38_exact. Qed.
Print Assumptions C38_exact_partial.

(** The same request is refused with a panic or has undefined behaviour, depending on
    where the block starts. *)
Example C38_exact_example :
  let os1 := [CZeros KRowMajor 3 4; CBlock true 0 (1, 4) (2, 0); CBlock false 0 (0, 1) (2, 2); CBlock false 1 (0, 2) (2, 0); CGet 0 1 2] : list (call Z nat) in
  let os2 := [CZeros KRowMajor 3 4; CBlock false 0 (0, 1) (3, 2); CBlock false 1 (3, 2) (0, 0); CGet 0 1 2] : list (call Z nat) in
  Forall safe_or_block os1 /\ Forall safe_or_block os2 /\
  results (run ex_kernel Checked initial os1) = Some [RNew; RPanicked; RNew; RPanicked; RItem 0%Z] /\
  ~ history_overshoots ex_kernel Checked initial os1 /\ history_overshoots ex_kernel Checked initial os2.
Proof.
  cbv zeta.
  assert (S1 : Forall (@safe_or_block Z nat) [CZeros KRowMajor 3 4; CBlock true 0 (1, 4) (2, 0); CBlock false 0 (0, 1) (2, 2); CBlock false 1 (0, 2) (2, 0); CGet 0 1 2])
    by (repeat constructor).
  assert (S2 : Forall (@safe_or_block Z nat) [CZeros KRowMajor 3 4; CBlock false 0 (0, 1) (3, 2); CBlock false 1 (3, 2) (0, 0); CGet 0 1 2])
    by (repeat constructor).
  split; [exact S1|]. split; [exact S2|]. split; [vm_compute; reflexivity|]. split.
  - intros H. apply (proj1 (c38_exact ex_kernel _ S1)) in H. vm_compute in H. discriminate H.
  - apply (proj1 (c38_exact ex_kernel _ S2)). vm_compute. reflexivity.
Qed.

(** C39: without overflow checks the same holds for histories in which no
    number of entries and no end of a block exceeds 2^64 - 1, blocks are not empty and
    matrices are split at interior points; without that restriction it is false, see
    the witness. *)
Theorem C39_no_wrap_partial : forall (T : Type) (SC : HScalar T) (St : Type) kern m (os : list (call T St)),
  Forall safe_call os -> no_wrap_history kern m initial os ->
  exists st rs, run kern m initial os = Ok (st, rs).
Proof. exact @c39. Qed.
Print Assumptions C39_no_wrap_partial.

Example C39_example : Forall safe_call ex_history /\ no_wrap_history ex_kernel Wrapping initial ex_history.
Proof.
  split; [repeat constructor; cbn; try discriminate; auto|].
  repeat (split; [first [exact I | repeat split; first [reflexivity | discriminate]
                        | intros b E; injection E as <-; repeat split; cbn; discriminate]
                 | intros st r E; vm_compute in E; injection E as <- <-]).
  exact I.
Qed.

(** A block of 3 * 2^62 rows of a 3 x 4 matrix is accepted, and reading its entry
    (5, 0) reads outside of the matrix. *)
Theorem C39_refuted : exists os : list (call Z nat),
  Forall safe_call os /\
  os = [CZeros KRowMajor 3 4; CBlock true 0 (2 ^ 62, 0) (3 * 2 ^ 62, 4); CGet 1 5 0] /\
  run ex_kernel Wrapping initial os = UB.
Proof.
  eexists. split; [|split; reflexivity]. repeat constructor; cbn; discriminate.
Qed.
Print Assumptions C39_refuted.

(** C40: a history changes no allocation but those it writes to; matrices that
    live elsewhere, or in other containers of the same allocation, read the same. *)
Theorem C40_allocations : forall (T : Type) (SC : HScalar T) (St : Type) kern m (os os' : list (call T St)) st rs st' rs' a l,
  run kern m initial os = Ok (st, rs) -> run kern m st os' = Ok (st', rs') ->
  nth_error (st_heap st) a = Some l -> ~ history_writes_in kern m st os' a ->
  nth_error (st_heap st') a = Some l.
Proof. exact @c40_allocations. Qed.
Print Assumptions C40_allocations.

Theorem C40_matrices : forall (T : Type) (SC : HScalar T) (St : Type) kern m (os os' : list (call T St)) st rs st' rs',
  run kern m initial os = Ok (st, rs) -> run kern m st os' = Ok (st', rs') ->
  forall n x, nth_error (st_mats st) n = Some x ->
    nth_error (st_mats st') n = Some x /\
    ((forall a, lives_in a x -> ~ history_writes_in kern m st os' a) ->
     reads_same (st_heap st) (st_heap st') x).
Proof. exact @c40_matrices. Qed.
Print Assumptions C40_matrices.

Theorem C40_containers : forall (T : Type) (SC : HScalar T) (St : Type) kern m (os os' : list (call T St)) st rs st' rs',
  run kern m initial os = Ok (st, rs) -> run kern m st os' = Ok (st', rs') ->
  forall n x, nth_error (st_mats st) n = Some x ->
    nth_error (st_mats st') n = Some x /\
    ((forall q, occupies x q -> ~ history_writes_over kern m st os' q) ->
     reads_same (st_heap st) (st_heap st') x).
Proof. exact @c40_containers. Qed.
Print Assumptions C40_containers.

(** After the history above, writes through a block of the first matrix, and the
    second matrix in another allocation. *)
Definition ex_more : list (call Z nat) := [CSet 2 1 1 7%Z; CFill 0 (fun n => (1%Z, S n)) 0%nat].
Definition ex_after : state Z :=
  match run ex_kernel Checked initial ex_history with Ok (st, _) => st | _ => initial end.

Example C40_example :
  results (run ex_kernel Checked ex_after ex_more) = Some [RDone; RLoop 12%nat false] /\
  (exists x, nth_error (st_mats ex_after) 1 = Some x /\
     (forall a, lives_in a x -> ~ history_writes_in ex_kernel Checked ex_after ex_more a) /\
     get Checked (st_heap ex_after) x 0 1 = Ok 5%Z).
Proof.
  split; [vm_compute; reflexivity|]. eexists. split; [vm_compute; reflexivity|]. split; [|vm_compute; reflexivity].
  intros a Ha. vm_compute in Ha. subst a. intros [(x & E & H)|H].
  - vm_compute in E. injection E as <-. vm_compute in H. discriminate H.
  - vm_compute in H. destruct H as [(x & E & H)|H]; [|exact H]. injection E as <-. discriminate H.
Qed.

(** C44: a matrix is split at interior points only. *)
Theorem C44_split_points : forall (T : Type) (h : @heap T) b D s,
  base_valid h b -> bm_layout b = RowMajor D ->
  (interior D s -> exists four, split_in_four_mut Checked b s = Ok four /\
     forall k, base_valid h (pick four k) /\ dim (bm_layout (pick four k)) = quarter_dim D s k) /\
  (~ interior D s -> panics (split_in_four_mut Checked b s)).
Proof. exact @c44. Qed.
Print Assumptions C44_split_points.

Example C44_example :
  base_valid ex_product_heap ex_a /\ bm_layout ex_a = RowMajor (2, 3) /\ interior (2, 3) (1, 2) /\ ~ interior (2, 3) (1, 3).
Proof.
  split; [apply ex_operands_valid|]. split; [reflexivity|]. split; [repeat split; discriminate + reflexivity|].
  intros (_ & _ & _ & H). discriminate H.
Qed.

(** C45: histories with unsafe functions (unchecked accesses, from_pointer) and with
    layouts with strides. As long as each call is within its contract, no call has
    undefined behaviour, with overflow checks or, if no size exceeds 2^64 - 1, without. *)
Theorem C45_contracts : forall (T : Type) (SC : HScalar T) (St : Type) kern m (os : list (call T St)),
  history_within_contract kern m initial os -> m = Checked \/ no_wrap_history kern m initial os ->
  exists st rs, run kern m initial os = Ok (st, rs).
Proof. exact @c45. Qed.
Print Assumptions C45_contracts.

(** A container with room for more than its vector with stride 3, unchecked
    accesses at its last entry, a 2 x 3 matrix with rows 5 cells apart over the same
    memory, written without checks, a block of it, a row over the end of the
    memory, a read that panics, and the product of the matrix with the vector. *)
Definition ex_unsafe : list (call Z nat) :=
  [ CFromVector Dynamic Fixed1 14 (ArbitraryStrideColumnVector 3 3); CSet1dUnchecked 0 2 8%Z;
    CGetUnchecked 0 2 0; CFromPointerStrided true ByRow 0 4 (2, 3) (5, 1); CSetUnchecked 1 1 2 9%Z;
    CGet1dUnchecked 1 2; CBlock true 1 (0, 1) (2, 2); CGetUnchecked 2 1 1;
    CFromPointer false ByColumn 0 7 (1, 7); CGet1d 3 4; CGet1d 3 7; CDot MatrixColumn 1 0 ].

(** An empty block inside of the matrix. *)
Definition ex_empty : call Z nat := CBlock false 1 (1, 1) (0, 5).

Ltac within_its_contract :=
  lazy beta iota delta [within_contract];
  first [ exact I | left; split; discriminate
        | intros y E; vm_compute in E; injection E as <-; vm_compute; intuition discriminate
        | right; intros y E; vm_compute in E; injection E as <-; vm_compute; discriminate
        | split; [exact I|]; intros _ p [[H1 H2] _]; revert H1 H2; cbn; lia
        | split; [split; discriminate|]; split; [split; cbn; lia|];
          intros y E; vm_compute in E; injection E as <-; intros p [H1 H2]; revert H1 H2; cbn [fst snd];
          unfold room; cbn [bm_data c_region r_len]; lia ].

Example C45_example : history_within_contract ex_kernel Checked initial (ex_unsafe ++ [ex_empty]) /\
  results (run ex_kernel Checked initial (ex_unsafe ++ [ex_empty])) =
    Some [RNew; RDone; RItem 8%Z; RNew; RDone; RItem 8%Z; RNew; RItem 0%Z; RNew; RItem 9%Z; RPanicked; RNew; RPanicked].
Proof.
  split; [|timeout 300 (vm_compute; reflexivity)]. cbn [app ex_unsafe].
  split; [within_its_contract|intros st r E; vm_compute in E; injection E as <- <-].
  repeat (split; [within_its_contract|intros st r E; vm_compute in E; injection E as <- <-]).
  exact I.
Qed.

(** The contract is needed: the same accesses one entry further are undefined. *)
Example C45_outside_contract :
  run ex_kernel Checked initial (firstn 4 ex_unsafe ++ [CGetUnchecked 1 1 3]) = UB /\
  run ex_kernel Checked initial (firstn 3 ex_unsafe ++ [CFromPointer false ByColumn 0 7 (1, 8)]) = UB /\
  run ex_kernel Checked initial (firstn 3 ex_unsafe ++ [CFromPointerStrided true ByRow 0 4 (3, 3) (5, 1)]) = UB.
Proof. repeat split; timeout 300 (vm_compute; reflexivity). Qed.

(** C46: the overflow-checked and the release build agree on every history in which no
    size exceeds 2^64 - 1, blocks are not empty and splits are at interior points: the same results, panics included, and the same memory. *)
Theorem C46_same_histories : forall (T : Type) (SC : HScalar T) (St : Type) kern m (os : list (call T St)),
  history_within_contract kern m initial os -> no_wrap_history kern m initial os ->
  run kern Wrapping initial os = run kern Checked initial os.
Proof. exact @c46. Qed.
Print Assumptions C46_same_histories.

Theorem C46_safe_histories : forall (T : Type) (SC : HScalar T) (St : Type) kern m (os : list (call T St)),
  Forall safe_call os -> no_wrap_history kern m initial os ->
  run kern Wrapping initial os = run kern Checked initial os.
Proof. exact @c46_safe. Qed.
Print Assumptions C46_safe_histories.

Example C46_example : history_within_contract ex_kernel Wrapping initial ex_unsafe /\
  no_wrap_history ex_kernel Wrapping initial ex_unsafe.
Proof.
  split.
  - repeat (split; [within_its_contract|intros st r E; vm_compute in E; injection E as <- <-]).
    exact I.
  - repeat (split; [first [exact I | repeat split; first [reflexivity | discriminate]]
                   | intros st r E; vm_compute in E; injection E as <- <-]).
    exact I.
Qed.

(** Sizes near the end of the range: matrices with more than 2^63 entries and blocks
    and slices far outside panic in both builds. *)
Definition ex_large : list (call Z nat) :=
  [ CZeros KRowMajor (2 ^ 62) 3; CZeros KColumnMajor 2 3; CBlock true 0 (2 ^ 63, 1) (2 ^ 63 - 1, 2);
    CZeros KUpperTriangular (2 ^ 32 - 1) (2 ^ 32 - 1); CRowZeros (2 ^ 64 - 1); CColumnZerosDim (2 ^ 63) 1;
    CFromVector Dynamic Dynamic 4 (ColumnMajor (2 ^ 40, 2 ^ 20)); CGet 0 (2 ^ 63) (2 ^ 63);
    CBlock false 0 (0, 0) (1, 2 ^ 64 - 1); CBlock false 0 (1, 1) (1, 2); CDot MatrixMatrix 1 0; CGet 0 1 2 ].

Example C46_large_example : Forall safe_call ex_large /\ no_wrap_history ex_kernel Wrapping initial ex_large /\
  results (run ex_kernel Wrapping initial ex_large) =
    Some [RPanicked; RNew; RPanicked; RPanicked; RPanicked; RPanicked; RPanicked; RPanicked; RPanicked; RNew;
          RNew; RItem 0%Z].
Proof.
  split; [repeat constructor; cbn; discriminate|]. split; [|timeout 300 (vm_compute; reflexivity)].
  repeat (split; [first [exact I | repeat split; first [reflexivity | discriminate]
                        | intros a b E E'; injection E as <-; injection E' as <-; reflexivity]
                 | intros st r E; vm_compute in E; injection E as <- <-]).
  exact I.
Qed.

(** Sizes do matter: a matrix with 2^63 rows of two entries panics in one build
    only (there it has no entries). *)
Example C46_size_needed :
  results (run ex_kernel Checked initial [CZeros (T := Z) (St := nat) KRowMajor (2 ^ 63) 2]) = Some [RPanicked] /\
  results (run ex_kernel Wrapping initial [CZeros (T := Z) (St := nat) KRowMajor (2 ^ 63) 2]) = Some [RNew].
Proof. split; timeout 300 (vm_compute; reflexivity). Qed.
