(** * Property C61: parts of one matrix used by threads that are interleaved access by access.

    The full statement is C61_safe_partial and C61_alone_partial with [safe_call] in place of
    [careful] and [well_behaved]: threads that hold matrices without a common entry,
    such as the quarters that split_in_four_mut returns, never race. It is false for the
    code: slices, blocks of several rows and products of such quarters race with
    accesses to the others. What is proved is that no other call does, whatever the schedule.
    As in C60, [code] is any gemm routine with [implements code kern], and a step of a
    schedule begins or ends a call or makes one access to the memory. *)

From Coq Require Import Lia ZifyBool ZifyNat ZifyN Permutation.
From Verif Require Import Machine Layouts Memory Matrix MatMul Spec MatrixSpec ExprSpec ProductSpec.
From Verif Require Import Program HistorySpec Borrow Threads Interleave InterleaveEntries.
From Verif Require Import ZScalar Properties_Products Properties_Borrow Properties_Threads Properties_Interleave Properties_ThreadEntries.
Local Open Scope N_scope.

(** C61: no schedule leads to undefined behaviour, and no two threads are ever about to
    access the same cell, one of them to write. *)
Theorem C61_safe_partial : forall (T : Type) (SC : HScalar T) (St : Type) (code : gemm_args T -> prog T unit) kern m
    (acts : list (action T St)) bs rs who (calls : nat -> list (call T St)) sched,
  implements code kern -> well_behaved kern m binitial acts ->
  brun kern m binitial acts = Some (Ok (bs, rs)) -> lends_apart bs who ->
  (forall k, careful_history kern m (view (handed bs who) k) (calls k)) ->
  (forall k, plain_history kern m (view (handed bs who) k) (calls k)) ->
  exists M, mrun code m (launch (handed bs who) calls) sched = Ok M /\ ~ race M.
Proof. exact @c61_safe. Qed.
Print Assumptions C61_safe_partial.

(** At every moment every thread has got the results, and has the matrices, that it would
    have if it had made its calls alone and one after the other. *)
Theorem C61_alone_partial : forall (T : Type) (SC : HScalar T) (St : Type) (code : gemm_args T -> prog T unit) kern m
    (acts : list (action T St)) bs rs who (calls : nat -> list (call T St)) sched M,
  implements code kern -> well_behaved kern m binitial acts ->
  brun kern m binitial acts = Some (Ok (bs, rs)) -> lends_apart bs who ->
  (forall k, careful_history kern m (view (handed bs who) k) (calls k)) ->
  (forall k, plain_history kern m (view (handed bs who) k) (calls k)) ->
  mrun code m (launch (handed bs who) calls) sched = Ok M ->
  forall k, exists made st,
    calls k = made ++ current (m_thread M k) ++ t_left (m_thread M k) /\
    run kern m (view (handed bs who) k) made = Ok (st, t_done (m_thread M k)) /\
    t_table (m_thread M k) = st_mats st /\
    (idle (m_thread M k) -> forall x, In x (st_mats st) -> same_matrix (st_heap st) x (memory M k) x).
Proof. exact @c61_alone. Qed.
Print Assumptions C61_alone_partial.

(** Every thread can always make all its calls without help of the others. *)
Theorem C61_finishes_partial : forall (T : Type) (SC : HScalar T) (St : Type) (code : gemm_args T -> prog T unit) kern m
    (acts : list (action T St)) bs rs who (calls : nat -> list (call T St)) sched M k,
  implements code kern -> well_behaved kern m binitial acts ->
  brun kern m binitial acts = Some (Ok (bs, rs)) -> lends_apart bs who ->
  (forall k, careful_history kern m (view (handed bs who) k) (calls k)) ->
  (forall k, plain_history kern m (view (handed bs who) k) (calls k)) ->
  mrun code m (launch (handed bs who) calls) sched = Ok M ->
  exists n M', mrun code m M (repeat k n) = Ok M' /\ finished (m_thread M' k).
Proof. exact @c61_finishes. Qed.
Print Assumptions C61_finishes_partial.

(** When all are done, whole calls one after the other, in any order that respects the
    order of every thread, give the same results and the same matrices. *)
Theorem C61_calls_partial : forall (T : Type) (SC : HScalar T) (St : Type) (code : gemm_args T -> prog T unit) kern m
    (acts : list (action T St)) bs rs who (calls : nat -> list (call T St)) sched M (whole : list (nat * call T St)),
  implements code kern -> well_behaved kern m binitial acts ->
  brun kern m binitial acts = Some (Ok (bs, rs)) -> lends_apart bs who ->
  (forall k, careful_history kern m (view (handed bs who) k) (calls k)) ->
  (forall k, plain_history kern m (view (handed bs who) k) (calls k)) ->
  mrun code m (launch (handed bs who) calls) sched = Ok M -> (forall k, finished (m_thread M k)) ->
  (forall k, of_thread k whole = calls k) ->
  exists p' tr, prun kern m (handed bs who) whole = Ok (p', tr) /\
    forall k, t_done (m_thread M k) = of_thread k tr /\
      Forall2 (fun x y => same_matrix (p_heap p') x (memory M k) y) (p_tabs p' k) (t_table (m_thread M k)).
Proof. exact @c61_calls. Qed.
Print Assumptions C61_calls_partial.

(** The four quarters of C56's example, with a switch after every access; the gemm routine
    begins with the last entry. *)
Definition ex_parts : nat -> list (call Z nat) := Properties_ThreadEntries.ex_calls.
Fixpoint rounds (n : nat) : list nat :=
  match n with O => [] | S n' => 0%nat :: 1%nat :: 2%nat :: 3%nat :: rounds n' end.

Example C61_example :
  implements last_first ex_kernel /\ well_behaved ex_kernel Checked binitial ex_quarter /\
  (exists rs, brun ex_kernel Checked binitial ex_quarter = Some (Ok (ex_quartered, rs))) /\
  lends_apart ex_quartered ex_quarters /\
  (forall k, careful_history ex_kernel Checked (view (handed ex_quartered ex_quarters) k) (ex_parts k)) /\
  (forall k, plain_history ex_kernel Checked (view (handed ex_quartered ex_quarters) k) (ex_parts k)) /\
  let half := mrun last_first Checked (launch (handed ex_quartered ex_quarters) ex_parts) (rounds 10) in
  let all := mrun last_first Checked (launch (handed ex_quartered ex_quarters) ex_parts) (rounds 80) in
  to_do 0 half = Some ([CGet 0 0 0], []) /\
  to_do 2 half = Some ([CGet 1 0 0], [CGet 1 1 1]) /\
  to_do 3 half = Some ([CMatmul 1%Z 1 2 0%Z 3], [CPlus ByReference ByReference 0 3; CEval 4; CGet 5 0 0; CGet 5 1 1]) /\
  told 0 all = Some [RNew; RDone; RItem 100%Z; RItem 0%Z] /\
  told 1 all = Some [RLoop 24%nat false; RNew; RNew; RItem 44%Z] /\
  told 2 all = Some [RPanicked; RDone; RNew; RItem 14%Z; RItem 26%Z] /\
  told 3 all = Some [RDone; RNew; RNew; RItem 29%Z; RItem 65%Z].
Proof.
  destruct C56_example as (W & E & L & C). destruct (C [0; 1; 2; 3]%nat) as (O & K & _); [now left|].
  split; [apply C60_orders; intros; apply Permutation_sym, Permutation_rev|]. split; [exact W|]. split; [eauto|]. split; [exact L|].
  split; [intros k; specialize (K k); rewrite O in K; exact K|].
  split; [|cbv zeta; repeat split; timeout 300 (vm_compute; reflexivity)].
  intros [|[|[|[|k]]]]; unfold ex_parts, Properties_ThreadEntries.ex_calls; cbn [plain_history];
    try (repeat (split; [exact Logic.I|]; intros); exact Logic.I).
  split; [|repeat (intros; split; [exact Logic.I|]); intros; exact Logic.I].
  intros x y z g Ex Ey Ez Eg. vm_compute in Ex, Ey, Ez. injection Ex as <-. injection Ey as <-. injection Ez as <-.
  eapply C60_plain; [exact Eg|..]; try exact Logic.I; try reflexivity.
  intros q (Q & _). split; intros (Q' & _); rewrite Q in Q'; discriminate.
Qed.

(** The witnesses: two threads make only safe calls on matrices that the borrow checker
    lets them have, and race. *)
Definition racing (acts : list (action Z nat)) (who : nat -> list nat) (calls : nat -> list (call Z nat)) : Prop :=
  Forall (fun a => match a with Do o => safe_call o | Drop _ => True end) acts /\ (forall k, Forall safe_call (calls k)) /\
  exists bs rs, brun ex_kernel Checked binitial acts = Some (Ok (bs, rs)) /\ lends_apart bs who /\
    (forall k, plain_history ex_kernel Checked (view (handed bs who) k) (calls k)) /\
    exists sched M, mrun (by_rows ex_kernel) Checked (launch (handed bs who) calls) sched = Ok M /\ race M.

Ltac lends :=
  split;
  [ intros [|[|k]] x H; repeat (destruct H as [<-|H]; [vm_compute; reflexivity|]); destruct H
  | intros [|[|j]] [|[|k]] x y v Hjk Hx Hy Ev Wv; try (now destruct Hjk); try (now destruct Hx); try (now destruct Hy);
      repeat (destruct Hx as [<-|Hx]; [vm_compute in Ev; injection Ev as <-; try discriminate Wv|]); try destruct Hx;
      repeat (destruct Hy as [<-|Hy]; [split; intros B; below_cases B|]); destruct Hy ].

(** The slice of the first quarter. *)
Theorem C61_slice_refuted : exists acts who calls, racing acts who calls.
Proof.
  exists [ Do (CZeros KRowMajor 4 4); Do (CSplit 0 (2, 2)) ],
    (fun k => match k with 0%nat => [1%nat] | 1%nat => [2%nat] | _ => [] end),
    (fun k => match k with 0%nat => [CSliceWrite 0 2 3 0 9%Z] | 1%nat => [CGet 0 0 0] | _ => [] end).
  split; [repeat constructor|]. split; [intros [|[|k]]; repeat constructor|].
  eexists. eexists. split; [timeout 300 (vm_compute; reflexivity)|]. split; [lends|].
  split; [intros [|[|k]]; cbn [plain_history]; repeat (split; [exact Logic.I|]; intros); exact Logic.I|].
  exists [1%nat; 0%nat]. eexists. split; [timeout 300 (vm_compute; reflexivity)|].
  exists 0%nat, 1%nat, 0%nat, 2, true, false. repeat split; try discriminate; try (vm_compute; lia); try (now left).
Qed.
Print Assumptions C61_slice_refuted.

(** A block of two rows of it. *)
Theorem C61_nested_block_refuted : exists acts who calls, racing acts who calls.
Proof.
  exists [ Do (CZeros KRowMajor 4 4); Do (CSplit 0 (2, 2)) ],
    (fun k => match k with 0%nat => [1%nat] | 1%nat => [2%nat] | _ => [] end),
    (fun k => match k with 0%nat => [CBlock true 0 (0, 0) (2, 2); CSet 1 1 0 9%Z] | 1%nat => [CGet 0 0 0] | _ => [] end).
  split; [repeat constructor|]. split; [intros [|[|k]]; repeat constructor; discriminate|].
  eexists. eexists. split; [timeout 300 (vm_compute; reflexivity)|]. split; [lends|].
  split; [intros [|[|k]]; cbn [plain_history]; repeat (split; [exact Logic.I|]; intros); exact Logic.I|].
  exists [1%nat; 0%nat; 0%nat; 0%nat]. eexists. split; [timeout 300 (vm_compute; reflexivity)|].
  exists 0%nat, 1%nat, 0%nat, 2, true, false. repeat split; try discriminate; try (vm_compute; lia); try (now left).
Qed.
Print Assumptions C61_nested_block_refuted.

(** A product that is stored in it. *)
Theorem C61_product_refuted : exists acts who calls, racing acts who calls.
Proof.
  exists [ Do (CZeros KRowMajor 4 4); Do (CZeros KRowMajor 2 2); Do (CFill 1 (fun n => (1%Z, S n)) 0%nat); Do (CSplit 0 (2, 2)) ],
    (fun k => match k with 0%nat => [2%nat; 1%nat] | 1%nat => [3%nat] | _ => [] end),
    (fun k => match k with 0%nat => [CMatmul 1%Z 1 1 0%Z 0] | 1%nat => [CGet 0 0 0] | _ => [] end).
  split; [repeat constructor|]. split; [intros [|[|k]]; repeat constructor|].
  eexists. eexists. split; [timeout 300 (vm_compute; reflexivity)|]. split; [lends|].
  split.
  { intros [|[|k]]; cbn [plain_history]; try (repeat (split; [exact Logic.I|]; intros); exact Logic.I).
    split; [|intros; exact Logic.I].
    intros x y z g Ex Ey Ez Eg. vm_compute in Ex, Ey, Ez. injection Ex as <-. injection Ey as <-. injection Ez as <-.
    eapply C60_plain; [exact Eg|..]; try exact Logic.I; try reflexivity.
    intros q (Q & _). split; intros (Q' & _); rewrite Q in Q'; discriminate. }
  exists (1%nat :: repeat 0%nat 18). eexists. split; [timeout 300 (vm_compute; reflexivity)|].
  exists 0%nat, 1%nat, 0%nat, 2, true, false. repeat split; try discriminate; try (vm_compute; lia); try (now left).
Qed.
Print Assumptions C61_product_refuted.
