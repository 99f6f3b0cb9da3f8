(** * Property C60: threads interleaved access by access.

    [code] is an arbitrary gemm routine that touches no cells but the entries of its
    arguments and leaves in C what [kern] says ([implements]). A schedule says which
    thread makes the next step; a step begins or ends a call, or makes one access to the
    memory. Threads hold disjoint matrices as in C55 ([C55_handed] says which programs
    get there). *)

From Coq Require Import Lia ZifyBool ZifyNat ZifyN Permutation.
From Verif Require Import Machine Layouts Memory Matrix MatMul Spec MatrixSpec ExprSpec ProductSpec.
From Verif Require Import Program HistorySpec Borrow Threads Interleave InterleaveMachine InterleaveOrders.
From Verif Require Import ZScalar Properties_Products Properties_Borrow Properties_Threads.
Local Open Scope N_scope.

(** C60: whatever the schedule, at every moment every thread has got the results, and has
    the matrices, that it would have if it had made its calls alone and one after the other. *)
Theorem C60_alone : forall (T : Type) (SC : HScalar T) (St : Type) (code : gemm_args T -> prog T unit) kern m p
    (calls : nat -> list (call T St)) sched M,
  implements code kern -> in_memory p -> Threads.apart p -> (forall k, plain_history kern m (view p k) (calls k)) ->
  mrun code m (launch p calls) sched = Ok M ->
  forall k, exists made st,
    calls k = made ++ current (m_thread M k) ++ t_left (m_thread M k) /\
    run kern m (view p k) made = Ok (st, t_done (m_thread M k)) /\
    t_table (m_thread M k) = st_mats st /\
    (idle (m_thread M k) -> forall x, In x (st_mats st) -> same_matrix (st_heap st) x (memory M k) x).
Proof. exact @c60_alone. Qed.
Print Assumptions C60_alone.

(** No two threads are ever about to access the same cell, one of them to write. *)
Theorem C60_races : forall (T : Type) (SC : HScalar T) (St : Type) (code : gemm_args T -> prog T unit) kern m p
    (calls : nat -> list (call T St)) sched M,
  implements code kern -> in_memory p -> Threads.apart p -> (forall k, plain_history kern m (view p k) (calls k)) ->
  mrun code m (launch p calls) sched = Ok M -> ~ race M.
Proof. exact @c60_races. Qed.
Print Assumptions C60_races.

(** If no thread alone has undefined behaviour, no schedule has. *)
Theorem C60_ub : forall (T : Type) (SC : HScalar T) (St : Type) (code : gemm_args T -> prog T unit) kern m p
    (calls : nat -> list (call T St)) sched,
  implements code kern -> in_memory p -> Threads.apart p -> (forall k, plain_history kern m (view p k) (calls k)) ->
  (forall k, exists x, run kern m (view p k) (calls k) = Ok x) ->
  exists M, mrun code m (launch p calls) sched = Ok M.
Proof. exact @c60_ub. Qed.
Print Assumptions C60_ub.

(** From every reachable state every thread can make all its calls, without help of
    the others: nothing blocks. *)
Theorem C60_finishes : forall (T : Type) (SC : HScalar T) (St : Type) (code : gemm_args T -> prog T unit) kern m p
    (calls : nat -> list (call T St)) sched M k,
  implements code kern -> in_memory p -> Threads.apart p -> (forall k, plain_history kern m (view p k) (calls k)) ->
  mrun code m (launch p calls) sched = Ok M -> (exists x, run kern m (view p k) (calls k) = Ok x) ->
  exists n M', mrun code m M (repeat k n) = Ok M' /\ finished (m_thread M' k).
Proof. exact @c60_finishes. Qed.
Print Assumptions C60_finishes.

(** When all threads are done, whole calls one after the other, in any order that respects
    the order of every thread, give the same results and the same matrices. *)
Theorem C60_calls : forall (T : Type) (SC : HScalar T) (St : Type) (code : gemm_args T -> prog T unit) kern m p
    (calls : nat -> list (call T St)) sched M (whole : list (nat * call T St)),
  implements code kern -> in_memory p -> Threads.apart p -> (forall k, plain_history kern m (view p k) (calls k)) ->
  mrun code m (launch p calls) sched = Ok M -> (forall k, finished (m_thread M k)) ->
  (forall k, of_thread k whole = calls k) ->
  exists p' tr, prun kern m p whole = Ok (p', tr) /\
    forall k, t_done (m_thread M k) = of_thread k tr /\
      Forall2 (fun x y => same_matrix (p_heap p') x (memory M k) y) (p_tabs p' k) (t_table (m_thread M k)).
Proof. exact @c60_calls. Qed.
Print Assumptions C60_calls.

(** The programs of the calls, run to the end without interruption, do what the
    functions of the other files say, panics included. *)
Theorem C60_sequential : forall (T : Type) (SC : HScalar T) (St : Type) (code : gemm_args T -> prog T unit) kern m
    (st : state T) (o : call T St), implements code kern ->
  (forall x a, In x (st_mats st) -> lives_in a x -> (a < length (st_heap st))%nat) -> plain_call st o ->
  step kern m st o =
  match program code m (st_mats st) o with
  | None => Ok (st, RSkipped)
  | Some c => match complete c (st_heap st) with
              | Ok (h', (new, r)) => Ok (mkState h' (st_mats st ++ new), r)
              | Panic => Ok (st, RPanicked)
              | UB => UB
              end
  end.
Proof. exact @c60_sequential. Qed.
Print Assumptions C60_sequential.

(** The hypothesis on the gemm routine: it may compute the entries of C in any order,
    which may depend on the arguments. *)
Theorem C60_orders : forall (T : Type) (order : gemm_args T -> list (N * N)) kern,
  (forall g, Permutation (order g) (positions (g_m (ga_shape g)) (g_n (ga_shape g)))) -> implements (in_order order kern) kern.
Proof. exact @c60_orders. Qed.
Print Assumptions C60_orders.

(** The hypothesis on products: C shares no cell with A and B, and is no vector with
    stride zero. *)
Theorem C60_plain : forall (T : Type) (alpha : T) a b beta c (g : gemm_args T), matmul_args alpha a b beta c = Ok g ->
  (forall q, occupies (@MBase T c) q -> ~ occupies (@MBase T a) q /\ ~ occupies (@MBase T b) q) ->
  fst (dim (bm_layout c)) < usize_mod -> snd (dim (bm_layout c)) < usize_mod ->
  match bm_layout c with
  | ArbitraryStrideRowVector _ s | ArbitraryStrideColumnVector _ s => 0 < s < usize_mod
  | _ => True
  end -> plain_args g.
Proof. exact @c60_plain. Qed.
Print Assumptions C60_plain.

(** The threads of C55's example, switching after every access. The gemm routine begins
    with the last entry. *)
Definition ex_calls (k : nat) : list (call Z nat) :=
  match k with 0%nat => ex_first | 1%nat => ex_second | _ => [] end.
Fixpoint in_turn (n : nat) : list nat := match n with O => [] | S n' => 0%nat :: 1%nat :: in_turn n' end.
Definition last_first : gemm_args Z -> prog Z unit :=
  in_order (fun g => rev (positions (g_m (ga_shape g)) (g_n (ga_shape g)))) ex_kernel.
Definition told (k : nat) (o : outcome (machine Z nat)) : option (list (result Z nat)) :=
  match o with Ok M => Some (t_done (m_thread M k)) | _ => None end.
Definition to_do (k : nat) (o : outcome (machine Z nat)) : option (list (call Z nat) * list (call Z nat)) :=
  match o with Ok M => Some (current (m_thread M k), t_left (m_thread M k)) | _ => None end.

Example C60_example :
  implements last_first ex_kernel /\ in_memory (handed ex_lent ex_who) /\ Threads.apart (handed ex_lent ex_who) /\
  (forall k, plain_history ex_kernel Checked (view (handed ex_lent ex_who) k) (ex_calls k)) /\
  let half := mrun last_first Checked (launch (handed ex_lent ex_who) ex_calls) (in_turn 20) in
  let all := mrun last_first Checked (launch (handed ex_lent ex_who) ex_calls) (in_turn 70) in
  to_do 0 half = Some ([CMatmul 1%Z 0 1 0%Z 2], [CScalarTimes 2%Z ByReference 2; CEval 3; CSet 2 0 0 100%Z; CGet 4 0 0; CGet 2 1 1]) /\
  to_do 1 half = Some ([CEval 4], [CGet 5 0 0; CGet 5 1 1]) /\
  to_do 0 all = Some ([], []) /\ to_do 1 all = Some ([], []) /\
  told 0 all = Some [RDone; RNew; RNew; RDone; RItem 20%Z; RItem 40%Z] /\
  told 1 all = Some [RDone; RPanicked; RNew; RNew; RNew; RItem 8%Z; RItem 5%Z].
Proof.
  destruct C55_example as (E & P & S & L & _). destruct (C55_handed _ _ _ _ _ _ _ _ _ P S E L) as [I A].
  split; [apply C60_orders; intros; apply Permutation_sym, Permutation_rev|]. split; [exact I|]. split; [exact A|].
  split; [|cbv zeta; repeat split; timeout 300 (vm_compute; reflexivity)].
  intros [|[|k]]; unfold ex_calls, ex_first, ex_second; cbn [plain_history]; try exact I0; try exact Logic.I.
  - split.
    + intros x y z g Ex Ey Ez Eg. vm_compute in Ex, Ey, Ez. injection Ex as <-. injection Ey as <-. injection Ez as <-.
      eapply C60_plain; [exact Eg|..]; try exact Logic.I; try reflexivity.
      intros q (Q & _). split; intros (Q' & _); rewrite Q in Q'; discriminate.
    + intros st r _. split; [exact Logic.I|]. intros. split; [exact Logic.I|]. intros. split; [exact Logic.I|]. intros.
      split; [exact Logic.I|]. intros. split; [exact Logic.I|]. intros. exact Logic.I.
  - repeat (split; [exact Logic.I|]; intros). exact Logic.I.
Qed.

(** Disjointness is needed: the quarters of split_in_four_mut have overlapping containers,
    and safe code that writes to the slice of one races with a read of another. *)
Theorem C60_apart_needed : exists (acts : list (action Z nat)) bs rs who (calls : nat -> list (call Z nat)) sched M,
  brun ex_kernel Checked binitial acts = Some (Ok (bs, rs)) /\
  Forall (fun a => match a with Do o => safe_call o | Drop _ => True end) acts /\
  (forall k, Forall safe_call (calls k)) /\ lends_apart bs who /\ in_memory (handed bs who) /\
  (forall k, plain_history ex_kernel Checked (view (handed bs who) k) (calls k)) /\
  mrun (by_rows ex_kernel) Checked (launch (handed bs who) calls) sched = Ok M /\ race M.
Proof.
  set (acts := [ Do (CZeros KRowMajor 4 4); Do (CSplit 0 (2, 2)) ] : list (action Z nat)).
  set (who := fun k => match k with 0%nat => [1%nat] | 1%nat => [2%nat] | _ => [] end).
  set (bs := ends (brun ex_kernel Checked binitial acts)).
  set (calls := fun k => match k with 0%nat => [CSliceWrite 0 2 3 0 9%Z] | 1%nat => [CGet 0 0 0] | _ => [] end : list (call Z nat)).
  assert (R : exists M, mrun (by_rows ex_kernel) Checked (launch (handed bs who) calls) [0%nat; 1%nat] = Ok M) by (eexists; vm_compute; reflexivity).
  destruct R as [M R].
  exists acts, bs, [RNew; RNew], who, calls, [0%nat; 1%nat], M.
  split; [timeout 300 (vm_compute; reflexivity)|]. split; [repeat constructor|].
  split; [intros [|[|k]]; repeat constructor|].
  split.
  { split.
    + intros [|[|k]] x H; repeat (destruct H as [<-|H]; [vm_compute; reflexivity|]); destruct H.
    + intros [|[|j]] [|[|k]] x y v Hjk Hx Hy Ev Wv; try (now destruct Hjk); try (now destruct Hx); try (now destruct Hy);
        repeat (destruct Hx as [<-|Hx]; [vm_compute in Ev; injection Ev as <-; try discriminate Wv|]); try destruct Hx;
        repeat (destruct Hy as [<-|Hy]; [split; intros B; below_cases B|]); destruct Hy. }
  split.
  { intros [|[|k]] x a Hx Ha; vm_compute in Hx; repeat (destruct Hx as [<-|Hx]; [vm_compute in Ha; subst a; vm_compute; lia|]); destruct Hx. }
  split; [intros [|[|k]]; cbn [calls plain_history]; repeat (split; [exact I|]; intros); exact I|].
  split; [exact R|].
  vm_compute in R. injection R as <-. exists 0%nat, 1%nat, 0%nat, 2, true, false.
  split; [discriminate|]. split; [vm_compute; lia|]. repeat split; try (now left).
Qed.
Print Assumptions C60_apart_needed.

(** And so is the hypothesis on products: if C is A, the order of the entries shows. *)
Theorem C60_plain_needed : exists (code : gemm_args Z -> prog Z unit) p (calls : nat -> list (call Z nat)) sched M,
  implements code ex_kernel /\ in_memory p /\ Threads.apart p /\
  mrun code Checked (launch p calls) sched = Ok M /\ finished (m_thread M 0) /\
  t_done (m_thread M 0) = [RNew; RLoop 4%nat false; RDone; RItem 11%Z] /\
  exists st, run ex_kernel Checked (view p 0) (calls 0%nat) = Ok (st, [RNew; RLoop 4%nat false; RDone; RItem 5%Z]).
Proof.
  exists last_first, (mkPool [] (fun _ => [])),
    (fun k => match k with 0%nat => [CZeros KRowMajor 2 2; CFill 0 (fun n => (Z.of_nat n, S n)) 0%nat; CMatmul 1%Z 0 0 0%Z 0; CGet 0 0 1] | _ => [] end),
    (repeat 0%nat 60).
  assert (R : exists M, mrun last_first Checked (launch (mkPool [] (fun _ => [])) (fun k => match k with 0%nat => [CZeros KRowMajor 2 2; CFill 0 (fun n => (Z.of_nat n, S n)) 0%nat; CMatmul 1%Z 0 0 0%Z 0; CGet 0 0 1] | _ => [] end))
     (repeat 0%nat 60) = Ok M /\ True) by (eexists; split; [vm_compute; reflexivity|exact I]).
  destruct R as [M [R _]]. exists M.
  split; [apply C60_orders; intros; apply Permutation_sym, Permutation_rev|].
  split; [intros k x a []|]. split; [intros j k x y q _ []|]. split; [exact R|].
  vm_compute in R. injection R as <-. split; [split; reflexivity|]. split; [vm_compute; reflexivity|].
  eexists. vm_compute. reflexivity.
Qed.
Print Assumptions C60_plain_needed.
