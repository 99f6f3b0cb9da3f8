(** * Property C55: threads that hold disjoint matrices do not influence each other.

    [kern] is an arbitrary gemm routine and [St] an arbitrary type of closure states.
    A schedule is an arbitrary interleaving of arbitrarily many calls of arbitrarily
    many threads, every method of the library included, in both builds. *)

From Coq Require Import Lia.
From Verif Require Import Machine Layouts Memory Matrix MatMul Spec MatrixSpec ExprSpec ProductSpec.
From Verif Require Import Program HistorySpec Borrow BorrowFacts Threads ThreadProofs.
From Verif Require Import ZScalar Properties_Products Properties_Borrow.
Local Open Scope N_scope.

(** C55: every thread gets the results, and ends with the matrices, that it would have
    if it ran alone. *)
Theorem C55_alone : forall (T : Type) (SC : HScalar T) (St : Type) kern m p (sched : list (nat * call T St)) p' tr,
  in_memory p -> apart p ->
  prun kern m p sched = Ok (p', tr) ->
  forall k, exists st,
    run kern m (view p k) (of_thread k sched) = Ok (st, of_thread k tr) /\
    Forall2 (fun x y => same_matrix (st_heap st) x (p_heap p') y) (st_mats st) (p_tabs p' k).
Proof. exact @c55_alone. Qed.
Print Assumptions C55_alone.

(** The schedule runs into undefined behaviour only if a thread alone does. *)
Theorem C55_ub : forall (T : Type) (SC : HScalar T) (St : Type) kern m p (sched : list (nat * call T St)),
  in_memory p -> apart p ->
  (forall k, exists x, run kern m (view p k) (of_thread k sched) = Ok x) <->
  (exists x, prun kern m p sched = Ok x).
Proof. exact @c55_ub. Qed.
Print Assumptions C55_ub.

(** So the order in which the threads are scheduled does not matter. *)
Theorem C55_order : forall (T : Type) (SC : HScalar T) (St : Type) kern m p (s1 s2 : list (nat * call T St)) p1 tr1 p2 tr2,
  in_memory p -> apart p ->
  (forall k, of_thread k s1 = of_thread k s2) ->
  prun kern m p s1 = Ok (p1, tr1) -> prun kern m p s2 = Ok (p2, tr2) ->
  forall k, of_thread k tr1 = of_thread k tr2 /\
    Forall2 (fun x y => same_matrix (p_heap p1) x (p_heap p2) y) (p_tabs p1 k) (p_tabs p2 k).
Proof. exact @c55_order. Qed.
Print Assumptions C55_order.

(** The matrices stay disjoint, new ones included. *)
Theorem C55_apart : forall (T : Type) (SC : HScalar T) (St : Type) kern m p (sched : list (nat * call T St)) p' tr,
  in_memory p -> apart p -> prun kern m p sched = Ok (p', tr) -> in_memory p' /\ apart p'.
Proof. exact @c55_apart. Qed.
Print Assumptions C55_apart.

(** No data races: whatever was called before, of the calls that two threads make next
    none can write a cell that the other can reach. *)
Theorem C55_races : forall (T : Type) (SC : HScalar T) (St : Type) kern m p (sched : list (nat * call T St)) p' tr,
  in_memory p -> apart p -> prun kern m p sched = Ok (p', tr) ->
  forall j k (o o' : call T St), j <> k ->
    step kern m (view p' j) o <> Ok (view p' j, RSkipped) ->
    step kern m (view p' k) o' <> Ok (view p' k, RSkipped) ->
    ~ conflicting p' j k o o'.
Proof. exact @c55_races. Qed.
Print Assumptions C55_races.

(** Programs that respect ownership meet the hypotheses: matrices that were made without
    raw pointers and without split_in_four_mut are disjoint if the borrow checker lets
    them go to different threads. *)
Theorem C55_handed : forall (T : Type) (SC : HScalar T) (St : Type) kern m (acts : list (action T St)) bs rs who,
  Forall no_pointers acts -> Forall no_split acts ->
  brun kern m binitial acts = Some (Ok (bs, rs)) -> lends_apart bs who ->
  in_memory (handed bs who) /\ apart (handed bs who).
Proof. exact @c55_handed. Qed.
Print Assumptions C55_handed.

(** A 2 x 3 matrix of 0 .. 5 (0) and a 3 x 2 matrix of 0 .. 5 (1) are lent to two threads
    through blocks (4, 5); each thread also gets a matrix of its own (2, 3). The first
    thread computes their product, allocates a copy of twice the product, and reads it;
    the second writes, panics, sums with a sub-block, allocates, and reads. *)
Definition ex_lend : list (action Z nat) :=
  [ Do (CZeros KRowMajor 2 3); Do (CZeros KRowMajor 3 2); Do (CZeros KRowMajor 2 2); Do (CZeros KRowMajor 2 2);
    Do (CFill 0 (fun n => (Z.of_nat n, S n)) 0%nat); Do (CFill 1 (fun n => (Z.of_nat n, S n)) 0%nat);
    Do (CBlock false 0 (0, 0) (2, 3)); Do (CBlock false 1 (0, 0) (3, 2)) ].
Definition ex_lent : bstate Z := Eval vm_compute in ends (brun ex_kernel Checked binitial ex_lend).
Definition ex_who (k : nat) : list nat :=
  match k with 0%nat => [4; 5; 2]%nat | 1%nat => [4; 5; 3]%nat | _ => [] end.
Definition ex_first : list (call Z nat) :=
  [ CMatmul 1%Z 0 1 0%Z 2; CScalarTimes 2%Z ByReference 2; CEval 3; CSet 2 0 0 100%Z; CGet 4 0 0; CGet 2 1 1 ].
Definition ex_second : list (call Z nat) :=
  [ CSet 2 0 0 7%Z; CSet 2 5 5 1%Z; CBlock false 0 (0, 1) (2, 2); CPlus ByReference ByReference 2 3; CEval 4;
    CGet 5 0 0; CGet 5 1 1 ].
Fixpoint alternate {A : Type} (xs ys : list A) : list (nat * A) :=
  match xs, ys with
  | x :: xs', y :: ys' => (0%nat, x) :: (1%nat, y) :: alternate xs' ys'
  | _, _ => map (fun x => (0%nat, x)) xs ++ map (fun y => (1%nat, y)) ys
  end.
Definition answers {P A : Type} (k : nat) (o : outcome (P * list (nat * A))) : list A :=
  match o with Ok (_, tr) => of_thread k tr | _ => [] end.

Example C55_example :
  brun ex_kernel Checked binitial ex_lend = Some (Ok (ex_lent, [RNew; RNew; RNew; RNew; RLoop 6%nat false; RLoop 6%nat false; RNew; RNew])) /\
  Forall no_pointers ex_lend /\ Forall no_split ex_lend /\ lends_apart ex_lent ex_who /\
  let together := prun ex_kernel Checked (handed ex_lent ex_who) (alternate ex_first ex_second) in
  let backwards := prun ex_kernel Checked (handed ex_lent ex_who)
                     (map (fun y => (1%nat, y)) ex_second ++ map (fun x => (0%nat, x)) ex_first) in
  answers 0 together = [RDone; RNew; RNew; RDone; RItem 20%Z; RItem 40%Z] /\
  answers 1 together = [RDone; RPanicked; RNew; RNew; RNew; RItem 8%Z; RItem 5%Z] /\
  answers 0 backwards = answers 0 together /\ answers 1 backwards = answers 1 together.
Proof.
  split; [timeout 300 (vm_compute; reflexivity)|]. split; [repeat constructor|]. split; [repeat constructor|].
  split.
  - split.
    + intros [|[|k]] x H; repeat (destruct H as [<-|H]; [reflexivity|]); destruct H.
    + intros [|[|j]] [|[|k]] x y v Hjk Hx Hy Ev Wv; try (now destruct Hjk); try (now destruct Hx); try (now destruct Hy);
        repeat (destruct Hx as [<-|Hx]; [vm_compute in Ev; injection Ev as <-; try discriminate Wv|]); try destruct Hx;
        repeat (destruct Hy as [<-|Hy]; [split; intros B; below_cases B|]); destruct Hy.
  - cbv zeta. split; [timeout 300 (vm_compute; reflexivity)|]. split; [timeout 300 (vm_compute; reflexivity)|].
    split; timeout 300 (vm_compute; reflexivity).
Qed.

(** Without disjointness it is false: the quarters of split_in_four_mut have overlapping
    containers, and a thread that writes to the slice of one changes what a thread
    that holds another one reads. *)
Theorem C55_apart_needed : exists (acts : list (action Z nat)) bs rs who (s1 s2 : list (nat * call Z nat)),
  brun ex_kernel Checked binitial acts = Some (Ok (bs, rs)) /\
  Forall (fun a => match a with Do o => safe_call o | Drop _ => True end) acts /\
  Forall safe_call (map snd s1) /\ lends_apart bs who /\
  (forall k, of_thread k s1 = of_thread k s2) /\
  answers 1 (prun ex_kernel Checked (handed bs who) s1) = [RItem 9%Z] /\
  answers 1 (prun ex_kernel Checked (handed bs who) s2) = [RItem 0%Z].
Proof.
  set (acts := [ Do (CZeros KRowMajor 4 4); Do (CSplit 0 (2, 2)) ] : list (action Z nat)).
  set (who := fun k => match k with 0%nat => [1%nat] | 1%nat => [2%nat] | _ => [] end).
  exists acts, (ends (brun ex_kernel Checked binitial acts)), [RNew; RNew], who,
    [(0%nat, CSliceWrite 0 2 3 0 9%Z); (1%nat, CGet 0 0 0)], [(1%nat, CGet 0 0 0); (0%nat, CSliceWrite 0 2 3 0 9%Z)].
  split; [timeout 300 (vm_compute; reflexivity)|]. split; [repeat constructor|]. split; [repeat constructor|].
  split.
  { split.
    + intros [|[|k]] x H; repeat (destruct H as [<-|H]; [vm_compute; reflexivity|]); destruct H.
    + intros [|[|j]] [|[|k]] x y v Hjk Hx Hy Ev Wv; try (now destruct Hjk); try (now destruct Hx); try (now destruct Hy);
        repeat (destruct Hx as [<-|Hx]; [vm_compute in Ev; injection Ev as <-; try discriminate Wv|]); try destruct Hx;
        repeat (destruct Hy as [<-|Hy]; [split; intros B; below_cases B|]); destruct Hy. }
  split; [intros [|[|k]]; reflexivity|].
  split; timeout 300 (vm_compute; reflexivity).
Qed.
Print Assumptions C55_apart_needed.
