(** * Properties_InterleaveSteps: what a step of a thread does (C60): it changes only the
    cell of the common memory that [next_access], which C60_races is about, tells to be written. *)

From Coq Require Import Lia ZifyBool ZifyNat ZifyN.
From Verif Require Import Machine MachineFacts Layouts Memory MemoryFacts Matrix MatMul Spec MatrixSpec ExprSpec ProductSpec Program.
From Verif Require Import HistorySpec Borrow Threads Interleave InterleaveMachine InterleaveProofs ZScalar Properties_Interleave.
Local Open Scope N_scope.

Lemma c60_writes : forall (T : Type) (SC : HScalar T) (St : Type) (code : gemm_args T -> prog T unit) m (M M' : machine T St) k,
  mstep code m M k = Ok M' ->
  (forall a i, hget (m_common M') a i <> hget (m_common M) a i -> next_access (m_thread M k) = Some (a, i, true)) /\
  (forall j, j <> k -> m_thread M' j = m_thread M j).
Proof.
  intros T SC St code m M M' k E.
  assert (UP : forall h tb rest now done,
    (forall a i, (a < length (m_common M))%nat -> hget h a i <> hget (m_common M) a i -> next_access (m_thread M k) = Some (a, i, true)) ->
    Ok (update M k h tb rest now done) = Ok M' ->
    (forall a i, hget (m_common M') a i <> hget (m_common M) a i -> next_access (m_thread M k) = Some (a, i, true)) /\
    (forall j, j <> k -> m_thread M' j = m_thread M j)).
  { intros h tb rest now done H Q. injection Q as <-. unfold update. cbn [m_common m_thread]. split.
    - intros a i N. rewrite hget_firstn in N. destruct (Nat.ltb_spec a (length (m_common M))) as [L|L]; [now apply H|].
      exfalso. apply N. symmetry. now apply hget_none_outside.
    - intros j D. unfold set_thread. apply Nat.eqb_neq in D. now rewrite D. }
  assert (ME : forall a i, (a < length (m_common M))%nat -> hget (memory M k) a i <> hget (m_common M) a i -> next_access (m_thread M k) = Some (a, i, true)).
  { intros a i L N. exfalso. apply N. unfold memory. now apply hget_app. }
  unfold mstep in E. destruct (t_now (m_thread M k)) as [[[o n] c]|] eqn:NW.
  - destruct c as [[[ms r]| |]|p c|p v c|l c]; try discriminate E.
    + exact (UP _ _ _ _ _ ME E).
    + refine (UP _ _ _ _ _ _ E). intros a i L N. exfalso. apply N. rewrite hget_firstn.
      destruct (Nat.ltb_spec a (length (m_common M) + n)) as [_|G]; [|lia]. unfold memory. now apply hget_app.
    + apply bind_ok in E. destruct E as (v & _ & E). exact (UP _ _ _ _ _ ME E).
    + apply bind_ok in E. destruct E as (h' & W & E). refine (UP _ _ _ _ _ _ E). intros a i L N. apply place_write_inv in W. destruct W as (-> & _).
      unfold next_access. rewrite NW. destruct (Nat.eq_dec (pl_alloc p) a) as [<-|D]; [destruct (N.eq_dec (pl_index p) i) as [<-|D]; [reflexivity|]|];
        exfalso; apply N; (rewrite hget_hset_other by congruence); unfold memory; now apply hget_app.
    + destruct (alloc (memory M k) l) as [h' r] eqn:A. refine (UP _ _ _ _ _ _ E). intros a i L N. exfalso. apply N. unfold alloc in A. injection A as <- _.
      unfold memory. rewrite <- app_assoc. now apply hget_app.
  - destruct (t_left (m_thread M k)) as [|o rest]; [injection E as <-; split; [contradiction|reflexivity]|].
    destruct (program code m _ o); exact (UP _ _ _ _ _ ME E).
Qed.

(** The common memory changes at no other cell, and no other thread changes. *)
Theorem C60_writes : forall (T : Type) (SC : HScalar T) (St : Type) (code : gemm_args T -> prog T unit) m (M M' : machine T St) k,
  mstep code m M k = Ok M' ->
  (forall a i, hget (m_common M') a i <> hget (m_common M) a i -> next_access (m_thread M k) = Some (a, i, true)) /\
  (forall j, j <> k -> m_thread M' j = m_thread M j).
Proof. exact c60_writes. Qed.
Print Assumptions C60_writes.

(** A step that writes one item of the common memory. *)
Example C60_writes_example :
  let start := mkMachine [[1; 2; 3; 4]%Z; [7]%Z]
    (fun k => mkThread [MBase (mkBase (mkContainer VectorContainer (mkRegion 0 0 4)) (RowMajor (2, 2)) Dynamic Dynamic)] [] [CSet 0 1 (N.of_nat k) 9%Z : call Z nat] None []) in
  let look s := match mrun last_first Checked start s with
                | Ok M => Some (m_common M, next_access (m_thread M 0%nat), next_access (m_thread M 1%nat))
                | _ => None
                end in
  look [0%nat; 1%nat] = Some ([[1; 2; 3; 4]%Z; [7]%Z], Some (0%nat, 2, true), Some (0%nat, 3, true)) /\
  look [0%nat; 1%nat; 1%nat] = Some ([[1; 2; 3; 9]%Z; [7]%Z], Some (0%nat, 2, true), None).
Proof. split; timeout 300 (vm_compute; reflexivity). Qed.
