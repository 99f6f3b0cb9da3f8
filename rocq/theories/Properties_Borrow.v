(** * Properties C48 - C51: histories that respect ownership.

    The histories of [Borrow] are those that the ownership rules of Rust admit:
    [brun] is [None] for others. [kern] is an arbitrary gemm routine and [St] an
    arbitrary type of closure states. *)

From Coq Require Import Lia.
From Verif Require Import Machine Layouts Memory Matrix MatMul Spec MatrixSpec ExprSpec ProductSpec.
From Verif Require Import Program HistorySpec Borrow BorrowFacts BorrowProofs OwnerProofs AliasProofs.
From Verif Require Import ZScalar Properties_Products.
Local Open Scope N_scope.

(** For the examples: what a history returned, and where it ends. *)
Definition breturns {T St : Type} (o : option (outcome (bstate T * list (result T St)))) : option (list (result T St)) :=
  match o with Some (Ok (_, rs)) => Some rs | _ => None end.
Definition ends {T St : Type} (o : option (outcome (bstate T * list (result T St)))) : bstate T :=
  match o with Some (Ok (bs, _)) => bs | _ => binitial end.

Lemma ends_eq : forall (T St : Type) (o : option (outcome (bstate T * list (result T St)))) rs,
  breturns o = Some rs -> o = Some (Ok (ends o, rs)).
Proof. intros T St [[[bs rs']| |]|] rs H; cbn in *; congruence. Qed.

(** C48: the entries of a matrix change only by writes to it or to a matrix that
    borrows from it. The full statement, for all histories of safe calls, is that of
    the two theorems below without [no_split] and without [respects_parts]; it is
    false, see the three witnesses. First, histories without split_in_four_mut and
    raw pointers, unchecked accesses included, in both builds. *)
Theorem C48_histories_partial : forall (T : Type) (SC : HScalar T) (St : Type) kern m (acts acts' : list (action T St)) bs rs bs' rs',
  Forall no_pointers acts -> Forall no_split acts -> Forall no_pointers acts' -> Forall no_split acts' ->
  brun kern m binitial acts = Some (Ok (bs, rs)) -> brun kern m bs acts' = Some (Ok (bs', rs')) ->
  forall y w, usable bs y w -> is_live (b_slots bs') y = true ->
    usable bs' y w /\
    (~ history_writes_below kern m bs acts' y -> reads_same (st_heap (b_state bs)) (st_heap (b_state bs')) w).
Proof.
  intros T SC St kern m acts acts' bs rs bs' rs' N1 S1 N2 S2 H H' y w Hy Hl.
  destruct (plain_reads kern m acts acts' bs rs bs' rs' N1 S1 N2 S2 H H' y w Hy Hl) as (A & B & _). auto.
Qed.
Print Assumptions C48_histories_partial.

(** Second, with splits, if the calls respect the parts. *)
Theorem C48_splits_partial : forall (T : Type) (SC : HScalar T) (St : Type) kern m (acts acts' : list (action T St)) bs rs bs' rs',
  well_behaved kern m binitial acts -> well_behaved kern m bs acts' ->
  brun kern m binitial acts = Some (Ok (bs, rs)) -> brun kern m bs acts' = Some (Ok (bs', rs')) ->
  forall y w, usable bs y w -> is_live (b_slots bs') y = true ->
    usable bs' y w /\
    (~ history_writes_below kern m bs acts' y -> reads_same (st_heap (b_state bs)) (st_heap (b_state bs')) w).
Proof.
  intros T SC St kern m acts acts' bs rs bs' rs' W1 W2 H H' y w Hy Hl.
  destruct (well_reads kern m acts acts' bs rs bs' rs' W1 W2 H H' y w Hy Hl) as (A & B & _). auto.
Qed.
Print Assumptions C48_splits_partial.

(** The reason: a writable matrix has a cell in common with another one only if
    one of them borrows from the other. *)
Theorem C48_containers_partial : forall (T : Type) (SC : HScalar T) (St : Type) kern m (acts : list (action T St)) bs rs,
  Forall no_pointers acts -> Forall no_split acts ->
  brun kern m binitial acts = Some (Ok (bs, rs)) ->
  forall x y v w q, usable bs x v -> usable bs y w -> x <> y -> is_writable v = true ->
    occupies v q -> occupies w q -> below (b_slots bs) x y \/ below (b_slots bs) y x.
Proof. exact @plain_disjoint. Qed.
Print Assumptions C48_containers_partial.

Theorem C48_entries_partial : forall (T : Type) (SC : HScalar T) (St : Type) kern m (acts : list (action T St)) bs rs,
  well_behaved kern m binitial acts ->
  brun kern m binitial acts = Some (Ok (bs, rs)) ->
  forall x y v w q, usable bs x v -> usable bs y w -> x <> y -> is_writable v = true ->
    has_cell v q -> has_cell w q -> below (b_slots bs) x y \/ below (b_slots bs) y x.
Proof. exact @well_disjoint. Qed.
Print Assumptions C48_entries_partial.

(** A 3 x 4 and a 2 x 2 matrix, a mutable block of the first (2), a block of the
    second (3), a mutable block of the block 2 (4), an expression of the second and
    3 (5); then writes to the inner block, a read through the outer one, a write to
    the first matrix, which ends its blocks, and a read of the expression. *)
Definition ex_before : list (action Z nat) :=
  [ Do (CZeros KRowMajor 3 4); Do (CZeros KRowMajor 2 2); Do (CFill 1 (fun n => (Z.of_nat n, S n)) 1%nat);
    Do (CBlock true 0 (1, 1) (2, 2)); Do (CBlock false 1 (0, 0) (2, 2)); Do (CBlock true 2 (0, 0) (1, 2));
    Do (CScalarTimes 10%Z ByReference 3) ].
Definition ex_then : list (action Z nat) :=
  [ Do (CSet 4 0 1 7%Z); Do (CGet 2 0 1); Do (CSet 0 2 2 9%Z); Do (CGet 0 1 2); Do (CGet 5 1 1) ].
Definition ex_state : bstate Z := Eval vm_compute in ends (brun ex_kernel Checked binitial ex_before).

Lemma writes_below_step : forall (T : Type) (SC : HScalar T) (St : Type) kern m bs (a : action T St) acts y bs' r,
  bstep kern m bs a = Some (Ok (bs', r)) -> history_writes_below kern m bs (a :: acts) y ->
  (exists x, written a = Some x /\ below (b_slots bs) x y) \/ history_writes_below kern m bs' acts y.
Proof. intros T SC St kern m bs a acts y bs' r E H. cbn [history_writes_below] in H. rewrite E in H. exact H. Qed.

(** Shows that a history of a concrete state does not write below a matrix. *)
Ltac below_cases H :=
  apply below_first in H; destruct H as [H|(? & ? & H' & H)];
    [try discriminate H | vm_compute in H'; repeat (destruct H' as [H'|H']; [injection H' as <- <-; below_cases H|]); try destruct H'].
Ltac no_writes H :=
  lazymatch type of H with
  | history_writes_below _ _ _ [] _ => exact H
  | _ =>
      eapply writes_below_step in H; [|timeout 300 (vm_compute; reflexivity)];
      let x := fresh in let E := fresh in
      destruct H as [(x & E & H)|H];
        [first [discriminate E | injection E as <-; below_cases H; fail "written"] | no_writes H]
  end.

Example C48_example :
  (Forall no_pointers (ex_before ++ ex_then) /\ Forall no_split (ex_before ++ ex_then)) /\
  breturns (brun ex_kernel Checked binitial ex_before) = Some [RNew; RNew; RLoop 5%nat false; RNew; RNew; RNew; RNew] /\
  breturns (brun ex_kernel Checked ex_state ex_then) = Some [RDone; RItem 7%Z; RDone; RItem 7%Z; RItem 40%Z] /\
  (exists w, usable ex_state 5 w) /\
  is_live (b_slots (ends (brun ex_kernel Checked ex_state ex_then))) 5 = true /\
  is_live (b_slots (ends (brun ex_kernel Checked ex_state ex_then))) 2 = false /\
  ~ history_writes_below ex_kernel Checked ex_state ex_then 5.
Proof.
  split; [split; repeat constructor|]. split; [timeout 300 (vm_compute; reflexivity)|].
  split; [timeout 300 (vm_compute; reflexivity)|]. split; [eexists; split; reflexivity|].
  split; [timeout 300 (vm_compute; reflexivity)|]. split; [timeout 300 (vm_compute; reflexivity)|].
  unfold ex_then. intros H. no_writes H.
Qed.

(** A 4 x 4 matrix split in four quarters (1 to 4), which are written in turns,
    and the last row of the last one (5). *)
Definition ex_split : list (action Z nat) :=
  [ Do (CZeros KRowMajor 4 4); Do (CSplit 0 (2, 2)); Do (CSet 1 1 1 5%Z); Do (CSet 4 1 1 8%Z);
    Do (CBlock false 4 (1, 0) (1, 2)) ].
Definition ex_split_then : list (action Z nat) :=
  [ Do (CFill 2 (fun n => (6%Z, S n)) 0%nat); Do (CSet 1 0 0 3%Z); Do (CGet 1 1 1); Do (CGet 5 0 1) ].
Definition ex_split_state : bstate Z := Eval vm_compute in ends (brun ex_kernel Checked binitial ex_split).

Ltac well_behaved_step :=
  split; [lazy beta iota zeta delta [safe_call respects_parts nonempty fst snd];
          repeat split; first [exact I | discriminate | left; reflexivity | intros _ ? _; left; reflexivity | reflexivity] | ];
  let bs := fresh in let r := fresh in let E := fresh in
  intros bs r E; vm_compute in E; injection E as <- <-.

Example C48_splits_example :
  well_behaved ex_kernel Checked binitial ex_split /\ well_behaved ex_kernel Checked ex_split_state ex_split_then /\
  breturns (brun ex_kernel Checked binitial ex_split) = Some [RNew; RNew; RDone; RDone; RNew] /\
  breturns (brun ex_kernel Checked ex_split_state ex_split_then) = Some [RLoop 4%nat false; RDone; RItem 5%Z; RItem 8%Z] /\
  (exists w, usable ex_split_state 5 w) /\
  is_live (b_slots (ends (brun ex_kernel Checked ex_split_state ex_split_then))) 5 = true /\
  ~ history_writes_below ex_kernel Checked ex_split_state ex_split_then 5.
Proof.
  split; [unfold ex_split; repeat well_behaved_step; exact I|].
  split; [unfold ex_split_then; repeat well_behaved_step; exact I|].
  split; [timeout 300 (vm_compute; reflexivity)|]. split; [timeout 300 (vm_compute; reflexivity)|].
  split; [eexists; split; reflexivity|]. split; [timeout 300 (vm_compute; reflexivity)|].
  unfold ex_split_then. intros H. no_writes H.
Qed.

(** The witnesses: histories of safe calls, admitted by the ownership rules and with
    overflow checks, in which a quarter of a split changes although nothing is
    written to it or to a borrower of it. *)
Definition interferes (T : Type) (SC : HScalar T) (St : Type) (kern : kernel T) (acts acts' : list (action T St)) : Prop :=
  (forall o, In (Do o) (acts ++ acts') -> safe_call o) /\
  exists bs rs bs' rs' y w r c,
    brun kern Checked binitial acts = Some (Ok (bs, rs)) /\ brun kern Checked bs acts' = Some (Ok (bs', rs')) /\
    usable bs y w /\ is_live (b_slots bs') y = true /\ ~ history_writes_below kern Checked bs acts' y /\
    get Checked (st_heap (b_state bs')) w r c <> get Checked (st_heap (b_state bs)) w r c.

Ltac interference y r c :=
  split;
  [ intros o H; cbn [app In] in H;
    repeat (destruct H as [H|H]; [first [discriminate H | injection H as <-; first [exact I | split; discriminate]]|]); destruct H
  | eexists; eexists; eexists; eexists; exists y; eexists; exists r, c;
    split; [timeout 300 (vm_compute; reflexivity)|]; split; [timeout 300 (vm_compute; reflexivity)|];
    split; [split; [reflexivity|timeout 300 (vm_compute; reflexivity)]|]; split; [reflexivity|];
    split; [let H := fresh in intros H; no_writes H | timeout 300 (vm_compute; discriminate)] ].

(** The slice of the first quarter has cells of the second one. *)
Theorem C48_slice_refuted : exists acts acts' : list (action Z nat), interferes Z _ nat ex_kernel acts acts'.
Proof.
  exists [Do (CZeros KRowMajor 4 4); Do (CSplit 0 (2, 2))], [Do (CSliceWrite 1 2 4 0 9%Z)].
  interference 2%nat 0 0.
Qed.
Print Assumptions C48_slice_refuted.

(** So has a block of several rows of the first quarter. *)
Theorem C48_nested_block_refuted : exists acts acts' : list (action Z nat), interferes Z _ nat ex_kernel acts acts'.
Proof.
  exists [Do (CZeros KRowMajor 4 4); Do (CSplit 0 (2, 2)); Do (CBlock true 1 (0, 0) (2, 2))], [Do (CSet 5 1 0 9%Z)].
  interference 2%nat 0 0.
Qed.
Print Assumptions C48_nested_block_refuted.

(** And products write to those cells. *)
Theorem C48_product_refuted : exists acts acts' : list (action Z nat), interferes Z _ nat ex_kernel acts acts'.
Proof.
  exists [Do (CZeros KRowMajor 4 4); Do (CZeros KRowMajor 2 2); Do (CFill 1 (fun n => (1%Z, S n)) 0%nat); Do (CSplit 0 (2, 2))],
    [Do (CMatmul 1%Z 1 1 0%Z 2)].
  interference 3%nat 0 0.
Qed.
Print Assumptions C48_product_refuted.

(** C49: what a read-only matrix reads does not change while it lives. The full
    statement is again the two theorems without [no_split] and [respects_parts]. *)
Theorem C49_histories_partial : forall (T : Type) (SC : HScalar T) (St : Type) kern m (acts acts' : list (action T St)) bs rs bs' rs',
  Forall no_pointers acts -> Forall no_split acts -> Forall no_pointers acts' -> Forall no_split acts' ->
  brun kern m binitial acts = Some (Ok (bs, rs)) -> brun kern m bs acts' = Some (Ok (bs', rs')) ->
  forall y w, usable bs y w -> is_live (b_slots bs') y = true -> is_writable w = false ->
    reads_same (st_heap (b_state bs)) (st_heap (b_state bs')) w.
Proof.
  intros T SC St kern m acts acts' bs rs bs' rs' N1 S1 N2 S2 H H' y w Hy Hl.
  destruct (plain_reads kern m acts acts' bs rs bs' rs' N1 S1 N2 S2 H H' y w Hy Hl) as (_ & _ & A). auto.
Qed.
Print Assumptions C49_histories_partial.

Theorem C49_splits_partial : forall (T : Type) (SC : HScalar T) (St : Type) kern m (acts acts' : list (action T St)) bs rs bs' rs',
  well_behaved kern m binitial acts -> well_behaved kern m bs acts' ->
  brun kern m binitial acts = Some (Ok (bs, rs)) -> brun kern m bs acts' = Some (Ok (bs', rs')) ->
  forall y w, usable bs y w -> is_live (b_slots bs') y = true -> is_writable w = false ->
    reads_same (st_heap (b_state bs)) (st_heap (b_state bs')) w.
Proof.
  intros T SC St kern m acts acts' bs rs bs' rs' W1 W2 H H' y w Hy Hl.
  destruct (well_reads kern m acts acts' bs rs bs' rs' W1 W2 H H' y w Hy Hl) as (_ & _ & A). auto.
Qed.
Print Assumptions C49_splits_partial.

(** The block, the expression and the block of a quarter above are read-only, live
    at the end and not all zero. *)
Example C49_example :
  (forall n, In n [3; 5]%nat -> exists w, usable ex_state n w /\ is_writable w = false /\
     is_live (b_slots (ends (brun ex_kernel Checked ex_state ex_then))) n = true /\
     get Checked (st_heap (b_state ex_state)) w 1 1 <> Ok 0%Z) /\
  (exists w, usable ex_split_state 5 w /\ is_writable w = false /\
     is_live (b_slots (ends (brun ex_kernel Checked ex_split_state ex_split_then))) 5 = true /\
     get Checked (st_heap (b_state ex_split_state)) w 0 1 <> Ok 0%Z).
Proof.
  split.
  - intros n [<-|[<-|[]]]; eexists; (split; [split; reflexivity|]); (split; [reflexivity|]);
      (split; [timeout 300 (vm_compute; reflexivity)|timeout 300 (vm_compute; discriminate)]).
  - eexists; (split; [split; reflexivity|]); (split; [reflexivity|]);
      (split; [timeout 300 (vm_compute; reflexivity)|timeout 300 (vm_compute; discriminate)]).
Qed.

(** A write to a matrix ends its views: after [ex_then] the mutable blocks of the
    first matrix cannot be used, and a history that does is not admitted. *)
Example C49_ended :
  brun ex_kernel Checked ex_state (ex_then ++ [Do (CGet 2 0 0)]) = None /\
  brun ex_kernel Checked ex_state [Do (CGet (St := nat) 0 0 0); Do (CGet 2 0 0)] = None /\
  brun ex_kernel Checked ex_state [Drop (St := nat) 1; Do (CGet 5 0 0)] = None /\
  brun ex_kernel Checked ex_state [Do (CMatmul (St := nat) 1%Z 3 3 0%Z 1)] = None /\
  breturns (brun ex_kernel Checked ex_state [Do (CGet (St := nat) 1 0 0); Do (CGet 3 0 0)]) = Some [RItem 1%Z; RItem 1%Z].
Proof. repeat split; timeout 300 (vm_compute; reflexivity). Qed.

(** A read-only block of the second quarter changes by a write to a slice of the
    first one. *)
Theorem C49_refuted : exists (acts acts' : list (action Z nat)) bs rs bs' rs' y w r c,
  (forall o, In (Do o) (acts ++ acts') -> safe_call o) /\
  brun ex_kernel Checked binitial acts = Some (Ok (bs, rs)) /\ brun ex_kernel Checked bs acts' = Some (Ok (bs', rs')) /\
  usable bs y w /\ is_live (b_slots bs') y = true /\ is_writable w = false /\
  get Checked (st_heap (b_state bs)) w r c = Ok 0%Z /\ get Checked (st_heap (b_state bs')) w r c = Ok 9%Z.
Proof.
  exists [Do (CZeros KRowMajor 4 4); Do (CSplit 0 (2, 2)); Do (CBlock false 2 (0, 0) (1, 2))], [Do (CSliceWrite 1 2 4 0 9%Z)].
  do 4 eexists. exists 5%nat. eexists. exists 0, 0. split.
  { intros o H. cbn [app In] in H.
    repeat (destruct H as [H|H]; [injection H as <-; first [exact I | split; discriminate]|]). destruct H. }
  split; [timeout 300 (vm_compute; reflexivity)|]. split; [timeout 300 (vm_compute; reflexivity)|].
  split; [split; reflexivity|]. split; [reflexivity|]. split; [reflexivity|]. split; timeout 300 (vm_compute; reflexivity).
Qed.
Print Assumptions C49_refuted.

(** C50: memory that a live matrix reads has exactly one live owner, from which
    the matrix borrows if it is not the owner itself; so it is not freed while it is
    read, and it is freed at most once. *)
Theorem C50_owner : forall (T : Type) (SC : HScalar T) (St : Type) kern m (acts : list (action T St)) bs rs,
  Forall no_pointers acts -> brun kern m binitial acts = Some (Ok (bs, rs)) ->
  (forall y w a, usable bs y w -> lives_in a w ->
     exists x v, usable bs x v /\ below (b_slots bs) y x /\ owners a v = 1%nat) /\
  (forall x y v w a, usable bs x v -> usable bs y w -> x <> y -> owners a v = 0%nat \/ owners a w = 0%nat) /\
  (forall x v a, usable bs x v -> (owners a v <= 1)%nat).
Proof. exact @c50. Qed.
Print Assumptions C50_owner.

(** A sum that owns the first matrix and 2 times the second, a block of a third one
    and a sum that owns the first sum and borrows from the block. *)
Definition ex_owned : list (action Z nat) :=
  [ Do (CZeros KRowMajor 2 2); Do (CZeros KRowMajor 2 2); Do (CScalarTimes 2%Z ByValue 1); Do (CPlus ByValue ByValue 0 2);
    Do (CZeros KRowMajor 3 3); Do (CSet 4 1 1 6%Z); Do (CSplit 4 (1, 1)); Do (CRefMut 8); Do (CPlus ByValue ByValue 3 9);
    Do (CGet 10 0 0) ].

Example C50_example : Forall no_pointers ex_owned /\
  breturns (brun ex_kernel Checked binitial ex_owned) =
    Some [RNew; RNew; RNew; RNew; RNew; RDone; RNew; RNew; RNew; RItem 6%Z] /\
  map live (b_slots (ends (brun ex_kernel Checked binitial ex_owned))) =
    [false; false; false; false; true; true; true; true; true; false; true] /\
  (exists w, usable (ends (brun ex_kernel Checked binitial ex_owned)) 10 w /\
     lives_in 0 w /\ lives_in 1 w /\ lives_in 2 w /\ owners 0 w = 1%nat /\ owners 1 w = 1%nat /\ owners 2 w = 0%nat).
Proof.
  split; [repeat constructor|]. split; [timeout 300 (vm_compute; reflexivity)|].
  split; [timeout 300 (vm_compute; reflexivity)|].
  eexists. split; [split; timeout 300 (vm_compute; reflexivity)|]. vm_compute. auto 10.
Qed.

(** A matrix cannot be moved twice. *)
Example C50_moved :
  brun ex_kernel Checked binitial (firstn 2 ex_owned ++ [Do (CPlus ByValue ByValue 0 0)]) = None /\
  brun ex_kernel Checked binitial (firstn 4 ex_owned ++ [Do (CGet 0 0 0)]) = None.
Proof. split; timeout 300 (vm_compute; reflexivity). Qed.

(** The hypothesis is needed: with raw pointers a matrix outlives its memory. *)
Theorem C50_pointers_needed : exists (acts : list (action Z nat)) bs rs y w,
  brun ex_kernel Checked binitial acts = Some (Ok (bs, rs)) /\ usable bs y w /\ lives_in 0 w /\
  forall x v, usable bs x v -> owners 0 v = 0%nat.
Proof.
  exists [Do (CZeros KRowMajor 2 2); Do (CFromPointer true ByRow 0 0 (2, 2)); Drop 0]. do 2 eexists. exists 1%nat. eexists.
  split; [timeout 300 (vm_compute; reflexivity)|]. split; [split; reflexivity|]. split; [reflexivity|].
  intros [|[|[|x]]] v [H1 H2]; try discriminate H1; try discriminate H2. injection H2 as <-. reflexivity.
Qed.
Print Assumptions C50_pointers_needed.

(** C51: the destination of a product does not alias its operands, so products
    are right. The full statement is the first theorem for all histories of safe
    calls; it is false, see the witness. *)
Theorem C51_products_partial : forall (T : Type) (SC : HScalar T) (St : Type) kern m (acts : list (action T St)) bs rs,
  well_behaved kern m binitial acts -> brun kern m binitial acts = Some (Ok (bs, rs)) ->
  forall alpha x y beta z bs',
  bstep kern m bs (Do (CMatmul alpha x y beta z)) = Some (Ok (bs', RDone (T := T) (St := St))) ->
  exists a b c, usable bs x (MBase a) /\ usable bs y (MBase b) /\ usable bs z (MBase c) /\
    compatible (dim (bm_layout a)) (dim (bm_layout b)) (dim (bm_layout c)) /\
    no_overlap a c /\ no_overlap b c /\
    (computes kern ->
     true_strides (bm_layout a) -> true_strides (bm_layout b) -> true_strides (bm_layout c) -> no_aliasing (bm_layout c) ->
     forall A B C, entries_are (st_heap (b_state bs)) a A -> entries_are (st_heap (b_state bs)) b B ->
       entries_are (st_heap (b_state bs)) c C ->
       entries_are (st_heap (b_state bs')) c (product_entry (snd (dim (bm_layout a))) alpha A B beta C) /\
       entries_are (st_heap (b_state bs')) a A /\ entries_are (st_heap (b_state bs')) b B).
Proof. exact @c51. Qed.
Print Assumptions C51_products_partial.

Theorem C51_containers_partial : forall (T : Type) (SC : HScalar T) (St : Type) kern m (acts : list (action T St)) bs rs,
  Forall no_pointers acts -> Forall no_split acts -> brun kern m binitial acts = Some (Ok (bs, rs)) ->
  forall alpha x y beta z bs',
  bstep kern m bs (Do (CMatmul alpha x y beta z)) = Some (Ok (bs', RDone (T := T) (St := St))) ->
  exists a b c, usable bs x (MBase a) /\ usable bs y (MBase b) /\ usable bs z (MBase c) /\
    disjoint (c_region (bm_data a)) (c_region (bm_data c)) /\
    disjoint (c_region (bm_data b)) (c_region (bm_data c)).
Proof. exact @c51_plain. Qed.
Print Assumptions C51_containers_partial.

(** The row of a block times a matrix. *)
Definition ex_rows : list (action Z nat) :=
  [ Do (CZeros KRowMajor 2 2); Do (CFill 0 (fun n => (Z.of_nat n, S n)) 1%nat); Do (CZeros KRowMajor 2 4);
    Do (CFill 1 (fun n => (Z.of_nat n, S n)) 1%nat); Do (CBlock false 1 (1, 0) (1, 2)); Do (CZeros KRowMajor 1 2) ].
Definition ex_rows_state : bstate Z := Eval vm_compute in ends (brun ex_kernel Checked binitial ex_rows).

Example C51_example : well_behaved ex_kernel Checked binitial ex_rows /\
  breturns (brun ex_kernel Checked binitial ex_rows) = Some [RNew; RLoop 5%nat false; RNew; RLoop 9%nat false; RNew; RNew] /\
  breturns (brun ex_kernel Checked ex_rows_state [Do (CMatmul (St := nat) 1%Z 2 0 0%Z 3); Do (CGet 3 0 0); Do (CGet 3 0 1)]) =
    Some [RDone; RItem 23%Z; RItem 34%Z] /\ computes ex_kernel.
Proof.
  split; [unfold ex_rows; repeat well_behaved_step; exact I|].
  split; [timeout 300 (vm_compute; reflexivity)|]. split; [timeout 300 (vm_compute; reflexivity)|].
  exact ex_kernel_computes.
Qed.

(** The ownership rules refuse a destination that aliases an operand ... *)
Example C51_refused :
  brun ex_kernel Checked ex_rows_state [Do (CMatmul (St := nat) 1%Z 0 0 0%Z 0)] = None /\
  brun ex_kernel Checked ex_rows_state [Do (CBlock (St := nat) true 0 (0, 0) (2, 2)); Do (CMatmul 1%Z 0 0 0%Z 4)] = None.
Proof. split; timeout 300 (vm_compute; reflexivity). Qed.

(** ... but a slice of a quarter made into a matrix aliases the next quarter. *)
Theorem C51_slice_refuted : exists (acts : list (action Z nat)) bs rs x y z bs' a c p q,
  (forall o, In (Do o) acts -> safe_call o) /\
  brun ex_kernel Checked binitial acts = Some (Ok (bs, rs)) /\
  bstep ex_kernel Checked bs (Do (CMatmul 1%Z x y 0%Z z)) = Some (Ok (bs', RDone (T := Z) (St := nat))) /\
  usable bs x (MBase a) /\ usable bs z (MBase c) /\
  in_range (dim (bm_layout a)) p /\ in_range (dim (bm_layout c)) q /\ entry_cell a p = entry_cell c q.
Proof.
  exists [Do (CZeros KRowMajor 4 4); Do (CSplit 0 (2, 2)); Do (CZeros KRowMajor 2 2);
          Do (CFromSlice true 1 0 4 Dynamic Dynamic (RowMajor (2, 2)))].
  do 2 eexists. exists 2%nat, 5%nat, 6%nat. do 3 eexists. exists (0, 0), (1, 0). split.
  { intros o H. cbn [In] in H.
    repeat (destruct H as [H|H]; [injection H as <-; first [exact I | reflexivity]|]). destruct H. }
  split; [timeout 300 (vm_compute; reflexivity)|]. split; [timeout 300 (vm_compute; reflexivity)|].
  split; [split; reflexivity|]. split; [split; reflexivity|].
  split; [split; reflexivity|]. split; [split; reflexivity|]. reflexivity.
Qed.
Print Assumptions C51_slice_refuted.
