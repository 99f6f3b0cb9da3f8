(** * Property C56: parts of one matrix can go to different threads.

    The full statement is C56_alone_partial with [safe_call] in place of [careful]
    and [well_behaved]: threads that hold matrices without a common entry, such as the
    quarters that split_in_four_mut returns, run as if alone. It is false for the code:
    slices, blocks of several rows and products of such quarters reach entries of
    the others. What is proved is that no other call does. *)

From Coq Require Import Lia.
From Verif Require Import Machine Layouts Memory Matrix MatMul Spec MatrixSpec ExprSpec ProductSpec.
From Verif Require Import Program HistorySpec Borrow BorrowFacts Threads ThreadProofs ThreadEntries.
From Verif Require Import ZScalar ProductProofs Properties_Products Properties_Borrow Properties_Threads.
Local Open Scope N_scope.

(** C56: matrices that the borrow checker lets a program hand to different threads,
    quarters of a split matrix included, are used as if each thread were alone; there is
    no undefined behaviour, and no entry is ever shared. *)
Theorem C56_alone_partial : forall (T : Type) (SC : HScalar T) (St : Type) kern m (acts : list (action T St)) bs rs who
    (sched : list (nat * call T St)),
  well_behaved kern m binitial acts ->
  brun kern m binitial acts = Some (Ok (bs, rs)) -> lends_apart bs who ->
  (forall k, careful_history kern m (view (handed bs who) k) (of_thread k sched)) ->
  exists p' tr, prun kern m (handed bs who) sched = Ok (p', tr) /\ entries_apart p' /\
    forall k, exists st,
      run kern m (view (handed bs who) k) (of_thread k sched) = Ok (st, of_thread k tr) /\
      Forall2 (fun x y => same_matrix (st_heap st) x (p_heap p') y) (st_mats st) (p_tabs p' k).
Proof. exact @c56. Qed.
Print Assumptions C56_alone_partial.

(** The order in which the threads are scheduled does not matter. *)
Theorem C56_order_partial : forall (T : Type) (SC : HScalar T) (St : Type) kern m (acts : list (action T St)) bs rs who
    (s1 s2 : list (nat * call T St)),
  well_behaved kern m binitial acts ->
  brun kern m binitial acts = Some (Ok (bs, rs)) -> lends_apart bs who ->
  (forall k, careful_history kern m (view (handed bs who) k) (of_thread k s1)) ->
  (forall k, of_thread k s1 = of_thread k s2) ->
  exists p1 tr1 p2 tr2,
    prun kern m (handed bs who) s1 = Ok (p1, tr1) /\ prun kern m (handed bs who) s2 = Ok (p2, tr2) /\
    forall k, of_thread k tr1 = of_thread k tr2 /\
      Forall2 (fun x y => same_matrix (p_heap p1) x (p_heap p2) y) (p_tabs p1 k) (p_tabs p2 k).
Proof. exact @c56_order. Qed.
Print Assumptions C56_order_partial.

(** No call changes a cell of an entry of a matrix of another thread. *)
Theorem C56_writes_partial : forall (T : Type) (SC : HScalar T) (St : Type) kern m (acts : list (action T St)) bs rs who
    (sched : list (nat * call T St)) p' tr,
  well_behaved kern m binitial acts ->
  brun kern m binitial acts = Some (Ok (bs, rs)) -> lends_apart bs who ->
  (forall k, careful_history kern m (view (handed bs who) k) (of_thread k sched)) ->
  prun kern m (handed bs who) sched = Ok (p', tr) ->
  forall j k (o : call T St) p'' r, j <> k -> careful m (view p' k) o -> pstep kern m p' k o = Ok (p'', r) ->
  forall y a i, In y (p_tabs p' j) -> has_cell y (a, i) -> hget (p_heap p'') a i = hget (p_heap p') a i.
Proof. exact @c56_writes. Qed.
Print Assumptions C56_writes_partial.

(** A 4 x 4 matrix of 0 .. 15 (0) is split into quarters (4 .. 7), which go to four
    threads; the last one also gets the matrices 1, 2, 3. The first thread takes the
    last row of its quarter, writes to it, and reads; the second fills its quarter,
    and evaluates its double; the third panics, writes, and sums; the last computes
    a product of its other matrices and adds it to its quarter. *)
Definition ex_quarter : list (action Z nat) :=
  [ Do (CZeros KRowMajor 4 4); Do (CZeros KRowMajor 2 2); Do (CZeros KRowMajor 2 2); Do (CZeros KRowMajor 2 2);
    Do (CFill 0 (fun n => (Z.of_nat n, S n)) 0%nat); Do (CFill 1 (fun n => (Z.of_nat n, S n)) 1%nat);
    Do (CFill 2 (fun n => (Z.of_nat n, S n)) 5%nat); Do (CSplit 0 (2, 2)) ].
Definition ex_quartered : bstate Z := Eval vm_compute in ends (brun ex_kernel Checked binitial ex_quarter).
Definition ex_quarters (k : nat) : list nat :=
  match k with 0%nat => [4] | 1%nat => [5] | 2%nat => [6] | 3%nat => [7; 1; 2; 3] | _ => [] end%nat.
Definition ex_calls (k : nat) : list (call Z nat) :=
  match k with
  | 0%nat => [ CBlock true 0 (1, 0) (1, 2); CSet 1 0 1 100%Z; CGet 0 1 1; CGet 0 0 0 ]
  | 1%nat => [ CFill 0 (fun n => (Z.of_nat n, S n)) 20%nat; CScalarTimes 2%Z ByReference 0; CEval 1; CGet 2 1 0 ]
  | 2%nat => [ CSet 0 2 0 1%Z; CSet 0 0 0 7%Z; CPlus ByReference ByReference 0 0; CGet 1 0 0; CGet 1 1 1 ]
  | 3%nat => [ CMatmul 1%Z 1 2 0%Z 3; CPlus ByReference ByReference 0 3; CEval 4; CGet 5 0 0; CGet 5 1 1 ]
  | _ => []
  end.
Definition ex_turns (os : nat -> list (call Z nat)) (turns : list nat) : list (nat * call Z nat) :=
  flat_map (fun i => flat_map (fun k => match nth_error (os k) i with Some o => [(k, o)] | None => [] end) turns)
    [0; 1; 2; 3; 4]%nat.

Example C56_example :
  well_behaved ex_kernel Checked binitial ex_quarter /\
  brun ex_kernel Checked binitial ex_quarter =
    Some (Ok (ex_quartered, [RNew; RNew; RNew; RNew; RLoop 16%nat false; RLoop 5%nat false; RLoop 9%nat false; RNew])) /\
  lends_apart ex_quartered ex_quarters /\
  (forall turns, In turns [[0; 1; 2; 3]; [3; 1; 0; 2]]%nat ->
    let sched := ex_turns ex_calls turns in
    (forall k, of_thread k sched = ex_calls k) /\
    (forall k, careful_history ex_kernel Checked (view (handed ex_quartered ex_quarters) k) (of_thread k sched)) /\
    let together := prun ex_kernel Checked (handed ex_quartered ex_quarters) sched in
    answers 0 together = [RNew; RDone; RItem 100%Z; RItem 0%Z] /\
    answers 1 together = [RLoop 24%nat false; RNew; RNew; RItem 44%Z] /\
    answers 2 together = [RPanicked; RDone; RNew; RItem 14%Z; RItem 26%Z] /\
    answers 3 together = [RDone; RNew; RNew; RItem 29%Z; RItem 65%Z]).
Proof.
  split; [unfold ex_quarter; repeat well_behaved_step; exact I|].
  split; [timeout 300 (vm_compute; reflexivity)|].
  split.
  { split.
    - intros [|[|[|[|k]]]] x H; repeat (destruct H as [<-|H]; [vm_compute; reflexivity|]); destruct H.
    - intros [|[|[|[|j]]]] [|[|[|[|k]]]] x y v Hjk Hx Hy Ev Wv;
        try (now destruct Hjk); try (now destruct Hx); try (now destruct Hy);
        repeat (destruct Hx as [<-|Hx]; [vm_compute in Ev; injection Ev as <-; try discriminate Wv|]); try destruct Hx;
        repeat (destruct Hy as [<-|Hy]; [split; intros B; below_cases B|]); destruct Hy. }
  intros turns Ht sched.
  assert (A : forall k, of_thread k sched = ex_calls k).
  { destruct Ht as [<-|[<-|[]]]; intros [|[|[|[|k]]]]; reflexivity. }
  split; [exact A|]. split.
  - intros k. rewrite A. destruct k as [|[|[|[|k]]]]; try exact I.
    + unfold ex_calls. split; [|intros; apply plain_careful; repeat constructor].
      split; [split; discriminate|]. split; [now left|]. intros b Hb. right. left. split; [|reflexivity].
      vm_compute in Hb. injection Hb as <-. reflexivity.
    + apply plain_careful. repeat constructor.
    + apply plain_careful. repeat constructor.
    + unfold ex_calls. split; [|intros; apply plain_careful; repeat constructor].
      split; [exact I|]. split; [now left|].
      repeat split; intros b Hb; vm_compute in Hb; injection Hb as <-; apply operand_true; reflexivity.
  - destruct Ht as [<-|[<-|[]]]; repeat split; timeout 300 (vm_compute; reflexivity).
Qed.

(** The witnesses: two threads make only safe calls on matrices that the borrow checker
    lets them have, and what the second one reads depends on which one is faster. *)
Definition depends_on_order (acts : list (action Z nat)) (who : nat -> list nat) (s1 s2 : list (nat * call Z nat)) : Prop :=
  Forall (fun a => match a with Do o => safe_call o | Drop _ => True end) acts /\ Forall safe_call (map snd s1) /\
  exists bs rs, brun ex_kernel Checked binitial acts = Some (Ok (bs, rs)) /\ lends_apart bs who /\
    (forall k, of_thread k s1 = of_thread k s2) /\
    answers 1 (prun ex_kernel Checked (handed bs who) s1) <> answers 1 (prun ex_kernel Checked (handed bs who) s2).

Ltac order_matters :=
  split; [repeat constructor|]; split; [repeat constructor; discriminate|];
  eexists; eexists; split; [timeout 300 (vm_compute; reflexivity)|];
  split;
  [ split;
    [ intros [|[|k]] x H; repeat (destruct H as [<-|H]; [vm_compute; reflexivity|]); destruct H
    | intros [|[|j]] [|[|k]] x y v Hjk Hx Hy Ev Wv; try (now destruct Hjk); try (now destruct Hx); try (now destruct Hy);
        repeat (destruct Hx as [<-|Hx]; [vm_compute in Ev; injection Ev as <-; try discriminate Wv|]); try destruct Hx;
        repeat (destruct Hy as [<-|Hy]; [split; intros B; below_cases B|]); destruct Hy ]
  | split; [intros [|[|k]]; reflexivity | timeout 300 (vm_compute; discriminate)] ].

(** The slice of the first quarter. *)
Theorem C56_slice_refuted : exists acts who s1 s2, depends_on_order acts who s1 s2.
Proof.
  exists [ Do (CZeros KRowMajor 4 4); Do (CSplit 0 (2, 2)) ],
    (fun k => match k with 0%nat => [1%nat] | 1%nat => [2%nat] | _ => [] end),
    [(0%nat, CSliceWrite 0 2 3 0 9%Z); (1%nat, CGet 0 0 0)], [(1%nat, CGet 0 0 0); (0%nat, CSliceWrite 0 2 3 0 9%Z)].
  order_matters.
Qed.
Print Assumptions C56_slice_refuted.

(** A block of two rows of it. *)
Theorem C56_nested_block_refuted : exists acts who s1 s2, depends_on_order acts who s1 s2.
Proof.
  exists [ Do (CZeros KRowMajor 4 4); Do (CSplit 0 (2, 2)) ],
    (fun k => match k with 0%nat => [1%nat] | 1%nat => [2%nat] | _ => [] end),
    [(0%nat, CBlock true 0 (0, 0) (2, 2)); (0%nat, CSet 1 1 0 9%Z); (1%nat, CGet 0 0 0)],
    [(0%nat, CBlock true 0 (0, 0) (2, 2)); (1%nat, CGet 0 0 0); (0%nat, CSet 1 1 0 9%Z)].
  order_matters.
Qed.
Print Assumptions C56_nested_block_refuted.

(** A product that is stored in it. *)
Theorem C56_product_refuted : exists acts who s1 s2, depends_on_order acts who s1 s2.
Proof.
  exists [ Do (CZeros KRowMajor 4 4); Do (CZeros KRowMajor 2 2); Do (CFill 1 (fun n => (1%Z, S n)) 0%nat); Do (CSplit 0 (2, 2)) ],
    (fun k => match k with 0%nat => [2%nat; 1%nat] | 1%nat => [3%nat] | _ => [] end),
    [(0%nat, CMatmul 1%Z 1 1 0%Z 0); (1%nat, CGet 0 0 0)], [(1%nat, CGet 0 0 0); (0%nat, CMatmul 1%Z 1 1 0%Z 0)].
  order_matters.
Qed.
Print Assumptions C56_product_refuted.
