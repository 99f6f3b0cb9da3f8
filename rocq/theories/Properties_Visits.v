(** * C72: which memory is accessed

    Property file: only the theorems of C72 and examples. The memory is that of [Flat]; [process_visits] lists
    the loads and stores of a run with the blocks in use at the time of each. The stores that fill a new block
    are not in the list: they are part of the allocation. *)

From Coq Require Import Lia.
From Verif Require Import Machine Layouts Memory Matrix MatMul Spec MatrixSpec ExprSpec ProductSpec.
From Verif Require Import Program HistorySpec Borrow Dealloc Threads Interleave Flat FlatHistory FlatVisits.
From Verif Require Import ZScalar Properties_Products Properties_Interleave Properties_Flat.
Local Open Scope N_scope.

(** Every load and store of a safe history is one of an item of a block that is in use at that time: no access
    behind the end, between two items, or to memory that was freed. *)
Theorem C72_in_use : forall (T : Type) (SC : HScalar T) (St B : Type) (encode : T -> list B) (decode : list B -> T),
  faithful encode decode ->
  forall choose kern (code : gemm_args T -> prog T unit), implements code kern ->
  forall m M (acts : list (faction T St)), Forall safe_call (calls acts) ->
  m = Checked \/ no_wrap_history kern m (@initial T) (calls acts) -> plain_products kern m finitial acts ->
  forall a bs, In (a, bs) (process_visits encode decode code choose m (begin_process M) acts) -> item_of bs a.
Proof. exact @c72_in_use. Qed.
Print Assumptions C72_in_use.

(** So does every history that is defined, with unsafe calls, too. *)
Theorem C72_defined : forall (T : Type) (SC : HScalar T) (St B : Type) (encode : T -> list B) (decode : list B -> T),
  faithful encode decode ->
  forall choose kern (code : gemm_args T -> prog T unit), implements code kern ->
  forall m M (acts : list (faction T St)), plain_products kern m finitial acts ->
  (forall o, frun kern m finitial acts = Some o -> exists x, o = Ok x) ->
  forall a bs, In (a, bs) (process_visits encode decode code choose m (begin_process M) acts) -> item_of bs a.
Proof. exact @c72_defined. Qed.
Print Assumptions C72_defined.

(** If the allocator returns aligned addresses and the size of an item is a multiple of its alignment, then all
    accesses are aligned; none goes beyond the address space. *)
Theorem C72_aligned : forall (T : Type) (SC : HScalar T) (St B : Type) (encode : T -> list B) (decode : list B -> T),
  faithful encode decode ->
  forall choose kern (code : gemm_args T -> prog T unit), implements code kern ->
  forall m M (acts : list (faction T St)) align, Forall safe_call (calls acts) ->
  m = Checked \/ no_wrap_history kern m (@initial T) (calls acts) -> plain_products kern m finitial acts ->
  (align | item_size) -> (forall n, (align | N.of_nat (choose n))) ->
  forall a bs, In (a, bs) (process_visits encode decode code choose m (begin_process M) acts) ->
  (align | a) /\ a + item_size <= usize_mod.
Proof. exact @c72_aligned. Qed.
Print Assumptions C72_aligned.

(** The list has all loads: a run depends only on the bytes it visits. From any process, with any other bytes in
    the rest of the memory, the results are the same, and so are the bytes that were the same before. *)
Theorem C72_loads : forall (T : Type) (SC : HScalar T) (St B : Type) (encode : T -> list B) (decode : list B -> T)
    (code : gemm_args T -> prog T unit) choose m P (acts : list (faction T St)) M P1 rs,
  (forall x, touched (process_visits encode decode code choose m P acts) x -> M x = y_mem (pr_bytes P) x) ->
  process_run encode decode code choose m P acts = Goes (P1, rs) ->
  exists M1, process_run encode decode code choose m (with_memory P M) acts = Goes (with_memory P1 M1, rs) /\
    forall x, M x = y_mem (pr_bytes P) x -> M1 x = y_mem (pr_bytes P1) x.
Proof. exact @reads_visited. Qed.
Print Assumptions C72_loads.

(** It has all stores: a byte that is not visited and not in a new block stays as it is. *)
Theorem C72_stores : forall (T : Type) (SC : HScalar T) (St B : Type) (encode : T -> list B) (decode : list B -> T),
  faithful encode decode ->
  forall (code : gemm_args T -> prog T unit) choose m (acts : list (faction T St)) P P1 rs,
  process_run encode decode code choose m P acts = Goes (P1, rs) ->
  (exists new, y_log (pr_bytes P1) = new ++ y_log (pr_bytes P)) /\
  forall x, ~ touched (process_visits encode decode code choose m P acts) x -> ~ handed_out (pr_bytes P) (pr_bytes P1) x ->
    y_mem (pr_bytes P1) x = y_mem (pr_bytes P) x.
Proof. exact @stores_visited. Qed.
Print Assumptions C72_stores.

(** The accesses of the history of C70: two [set], then [get] and [set] in memory that was used before, [get] of the
    other matrix, [set] of the next one; [eval] of a scalar product, and [get]. *)
Example C72_example :
  (8 | item_size (T := Z)) /\ (forall n, (8 | N.of_nat (upwards n))) /\
  process_visits last_piece from_last last_first upwards Checked (begin_process (fun _ => Some 1%Z)) ex_reuse =
    [ (1008, [(1000%nat, 4)]); (1072, [(1064%nat, 4); (1000%nat, 4)]);
      (1136, [(1128%nat, 4); (1064%nat, 4)]); (1136, [(1128%nat, 4); (1064%nat, 4)]); (1072, [(1128%nat, 4); (1064%nat, 4)]);
      (1280, [(1256%nat, 4)]) ] ++
    flat_map (fun k => [(1256 + 8 * k, [(1320%nat, 4); (1256%nat, 4)]); (1320 + 8 * k, [(1320%nat, 4); (1256%nat, 4)])]) [0; 1; 2; 3] ++
    [ (1344, [(1320%nat, 4); (1256%nat, 4)]) ].
Proof.
  split; [exists 1; reflexivity|]. split; [|timeout 300 (vm_compute; reflexivity)].
  intros n. exists (125 + 8 * N.of_nat n). unfold upwards. lia.
Qed.

(** Safety is needed: an unsafe view reads memory that was freed. *)
Theorem C72_safe_needed : exists (acts : list (faction Z nat)) a bs,
  In (a, bs) (process_visits first_piece from_first last_first upwards Checked (begin_process (fun _ => 0%Z)) acts) /\ ~ item_of (T := Z) bs a.
Proof.
  exists [ Act (Do (CZeros KRowMajor 2 2)); Act (Do (CFromPointer false ByRow 0 0 (2, 2))); Act (Drop 0); Act (Do (CGet 1 0 1)) ].
  exists 1008, []. split; [timeout 300 (vm_compute; left; reflexivity)|]. intros (b & k & [] & _).
Qed.
Print Assumptions C72_safe_needed.
