(** * Property C78: safe programs that hand their matrices to threads.

    A program of safe code runs on bytes ([FlatHistory]) and then hands matrices, views and
    expressions to threads, by value or as references. Each thread goes on as the first
    program could go on with what it was handed, and its destructors run. The numbers of the
    matrices of a thread are its own; [refile] gives those of the first program. *)

From Coq Require Import Lia ZifyBool ZifyNat ZifyN.
From Verif Require Import Machine Layouts Memory Matrix MatMul Spec MatrixSpec ExprSpec ProductSpec.
From Verif Require Import Program HistorySpec Borrow Dealloc Threads Interleave Flat FlatThreads FlatDrops FlatPrograms FlatScopes FlatScopeProofs.
From Verif Require Import ZScalar Properties_Products Properties_Borrow Properties_Threads Properties_Interleave Properties_Flat Properties_FlatThreads.
From Verif Require Import Properties_FlatDrops.
Local Open Scope N_scope.

(** C78. The only way not to go on is that there is no memory. No two threads race on a byte,
    none frees what another is about to use or to free, and every access is one of memory in
    use. Every thread has got what the first program gets if it goes on as that thread does,
    alone and with names for allocations, and what it was handed or made has the same items.
    Every thread can end without help of the others. If each of them frees what it made and
    what it was handed by value, then afterwards the memory of the first program is in use but
    for what was handed over, and nothing else. *)
Theorem C78_scopes : forall (T : Type) (SC : HScalar T) (St B : Type) (encode : T -> list B) (decode : list B -> T),
  faithful encode decode ->
  forall kern (code : gemm_args T -> prog T unit), implements code kern ->
  forall choose choose' m M0 (main : list (faction T St)) fs rs rs' P who owner (progs : nat -> list (faction T St)),
  safe_program kern m main -> frun kern m finitial main = Some (Ok (fs, rs)) ->
  process_run encode decode code choose m (begin_process M0) main = Goes (P, rs') ->
  lends_apart (f_state fs) who -> kept_apart (handed (f_state fs) who) owner ->
  (forall k, safe_program kern m (main ++ map (refile (thread_names fs who k)) (progs k))) ->
  exists place, holds decode place fs P /\
  let turns := dturns encode decode code choose' m in
  let start := dlaunch (handed (f_state fs) who) place (y_mem (pr_bytes P)) (y_blocks (pr_bytes P)) (fun k => map erased (progs k)) in
  (forall sched, turns start sched = NoMemory \/ exists M, turns start sched = Goes M) /\
  (forall sched M, turns start sched = Goes M ->
     (~ dbyte_race M /\ ~ free_race code m M /\ ~ double_free code m M) /\
     (forall k a w, dnext_visit (dm_thread M k) = Some (a, w) -> item_of (dm_used M) a) /\
     (forall k, exists made left fs2 rs2 rho,
        progs k = made ++ left /\ map erased left = now_actions (dm_thread M k) ++ dt_left (dm_thread M k) /\
        frun kern m fs (map (refile (thread_names fs who k)) made) = Some (Ok (fs2, rs2)) /\
        dt_done (dm_thread M k) = call_results made rs2 /\
        forall i w, nth_error (st_mats (b_state (f_state fs2))) (thread_names fs who k i) = Some w ->
          nth_error (dt_table (dm_thread M k)) i = Some (move_matrix rho w) /\
          (dt_now (dm_thread M k) = None -> forall q v, occupies w q -> hget (st_heap (b_state (f_state fs2))) (fst q) (snd q) = Some v ->
             load decode (dm_mem M) (address (mkPlace (rho (fst q)) (snd q))) = v)) /\
     (forall k, exists n, turns M (repeat k n) = NoMemory \/
        exists M', turns M (repeat k n) = Goes M' /\ dt_now (dm_thread M' k) = None /\ dt_left (dm_thread M' k) = []) /\
     ((forall k fs2 rs2 a, frun kern m fs (map (refile (thread_names fs who k)) (progs k)) = Some (Ok (fs2, rs2)) ->
         (a < length (st_heap (b_state (f_state fs2))))%nat ->
         (length (st_heap (b_state (f_state fs))) <= a)%nat \/ owner a = Some k -> In a (f_freed fs2)) ->
      (forall k, dt_now (dm_thread M k) = None /\ dt_left (dm_thread M k) = []) ->
      forall b, In b (dm_used M) <-> exists a l, nth_error (st_heap (b_state (f_state fs))) a = Some l /\ l <> [] /\ owner a = None /\
        b = (place a, N.of_nat (length l)))).
Proof. exact @c78_scopes. Qed.
Print Assumptions C78_scopes.

(** Matrices may be handed over if they can be moved while what others get stays usable. *)
Theorem C78_hands : forall (T : Type) (SC : HScalar T) (St : Type) (kern : kernel T) m (main : list (faction T St)) fs rs who owner,
  Forall safe_call (calls main) -> frun kern m finitial main = Some (Ok (fs, rs)) ->
  hands_over fs who owner -> kept_apart (handed (f_state fs) who) owner.
Proof. exact @c78_hands. Qed.
Print Assumptions C78_hands.

(** The first program makes a matrix of which two threads get views, and moves another one
    into an expression that the first thread gets, evaluates and destroys. *)
Definition ex_scope_main : list (faction Z nat) :=
  [ Act (Do (CZeros KRowMajor 2 2)); Act (Do (CSet 0 1 1 4%Z)); Act (Do (CZeros KRowMajor 2 3)); Act (Do (CSet 1 1 2 5%Z));
    Act (Do (CScalarTimes 2%Z ByValue 1)); Act (Do (CBlock false 0 (0, 0) (2, 2))); Act (Do (CBlock false 0 (0, 1) (2, 1))) ].
Definition ex_scope_who (k : nat) : list nat := match k with 0%nat => [3%nat; 2%nat] | 1%nat => [4%nat] | _ => [] end.
Definition ex_scope_owner (a : nat) : option nat := match a with 1%nat => Some 0%nat | _ => None end.
Definition ex_scope_progs (k : nat) : list (faction Z nat) :=
  match k with
  | 0%nat => [ Act (Do (CGet 0 1 1)); Act (Do (CEval 1)); Act (Drop 1); Act (Do (CGet 2 1 2)); Act (Drop 2) ]
  | 1%nat => [ Act (Do (CEval 0)); Act (Do (CGet 1 1 0)); Act (Drop 1) ]
  | _ => []
  end.
Definition ex_scope_choose (n : nat) : nat := match n with 0%nat => 64%nat | _ => 128%nat end.
Definition ex_scope_choose' (k n : nat) : nat := match k with 0%nat => 192%nat | _ => 128%nat end.
Definition ex_scope_end (o : option (outcome (fstate Z * list (result Z nat)))) : fstate Z :=
  match o with Some (Ok (fs, _)) => fs | _ => finitial end.
Definition ex_scope_state : fstate Z := Eval vm_compute in ex_scope_end (frun ex_kernel Checked finitial ex_scope_main).
Definition ex_scope_run (sched : list nat) : effect (dmachine Z nat Z) :=
  match process_run first_piece from_first last_first ex_scope_choose Checked (begin_process (fun _ => 1%Z)) ex_scope_main with
  | Goes (P, _) =>
      dturns first_piece from_first last_first ex_scope_choose' Checked
        (dlaunch (handed (f_state ex_scope_state) ex_scope_who) ex_scope_choose (y_mem (pr_bytes P)) (y_blocks (pr_bytes P)) (fun k => map erased (ex_scope_progs k))) sched
  | _ => NoMemory
  end.

Example C78_example :
  faithful first_piece from_first /\ implements last_first ex_kernel /\ safe_program ex_kernel Checked ex_scope_main /\
  (exists rs, frun ex_kernel Checked finitial ex_scope_main = Some (Ok (ex_scope_state, rs))) /\
  seen (process_run first_piece from_first last_first ex_scope_choose Checked (begin_process (fun _ => 1%Z)) ex_scope_main) =
    Some ([RNew; RDone; RNew; RDone; RNew; RNew; RNew], [(128%nat, 6); (64%nat, 4)], [(128%nat, 6); (64%nat, 4)]) /\
  lends_apart (f_state ex_scope_state) ex_scope_who /\ hands_over ex_scope_state ex_scope_who ex_scope_owner /\
  kept_apart (handed (f_state ex_scope_state) ex_scope_who) ex_scope_owner /\
  (forall k, safe_program ex_kernel Checked (ex_scope_main ++ map (refile (thread_names ex_scope_state ex_scope_who k)) (ex_scope_progs k))) /\
  map (refile (thread_names ex_scope_state ex_scope_who 0)) (ex_scope_progs 0) =
    [ Act (Do (CGet 3 1 1)); Act (Do (CEval 2)); Act (Drop 2); Act (Do (CGet 5 1 2)); Act (Drop 5) ] /\
  (forall k fs2 rs2 a, frun ex_kernel Checked ex_scope_state (map (refile (thread_names ex_scope_state ex_scope_who k)) (ex_scope_progs k)) = Some (Ok (fs2, rs2)) ->
     (a < length (st_heap (b_state (f_state fs2))))%nat ->
     (length (st_heap (b_state (f_state ex_scope_state))) <= a)%nat \/ ex_scope_owner a = Some k -> In a (f_freed fs2)) /\
  used_drop (ex_scope_run (repeat 0%nat 40)) = Some [(64%nat, 4)] /\
  used_drop (ex_scope_run (repeat 0%nat 40 ++ repeat 1%nat 4)) = Some [(128%nat, 2); (64%nat, 4)] /\
  ex_scope_run (repeat 1%nat 4) = NoMemory /\
  used_drop (ex_scope_run (repeat 0%nat 40 ++ repeat 1%nat 40)) = Some [(64%nat, 4)] /\
  left_drop 0 (ex_scope_run (repeat 0%nat 40 ++ repeat 1%nat 40)) = Some [] /\ left_drop 1 (ex_scope_run (repeat 0%nat 40 ++ repeat 1%nat 40)) = Some [] /\
  told_drop 0 (ex_scope_run (repeat 0%nat 40 ++ repeat 1%nat 40)) = Some [RItem 4%Z; RNew; RItem 10%Z] /\
  told_drop 1 (ex_scope_run (repeat 0%nat 40 ++ repeat 1%nat 40)) = Some [RNew; RItem 4%Z].
Proof.
  destruct C60_example as (IM & _). split; [exact first_faithful|]. split; [exact IM|].
  assert (SP : safe_program ex_kernel Checked ex_scope_main).
  { constructor; [repeat constructor; cbn; lia|repeat constructor|now left|eexists; timeout 300 (vm_compute; reflexivity)]. }
  split; [exact SP|].
  assert (R : exists rs, frun ex_kernel Checked finitial ex_scope_main = Some (Ok (ex_scope_state, rs))) by (eexists; timeout 300 (vm_compute; reflexivity)).
  split; [exact R|]. split; [timeout 300 (vm_compute; reflexivity)|]. split.
  { split.
    + intros [|[|k]] x H; repeat (destruct H as [<-|H]; [vm_compute; reflexivity|]); destruct H.
    + intros [|[|j]] [|[|k]] x y v Hjk Hx Hy Ev Wv; try (now destruct Hjk); try (now destruct Hx); try (now destruct Hy);
        repeat (destruct Hx as [<-|Hx]; [vm_compute in Ev; injection Ev as <-; discriminate Wv|]); destruct Hx. }
  assert (HO : hands_over ex_scope_state ex_scope_who ex_scope_owner).
  { split.
    - intros a k. split.
      + destruct a as [|[|a]]; try discriminate. intros E. injection E as <-. exists 2%nat. eexists. split; [right; now left|]. split; [reflexivity|]. now left.
      + intros (x & v & I & E & O). destruct k as [|[|k]]; cbn [ex_scope_who In] in I.
        * destruct I as [<-|[<-|[]]]; vm_compute in E; injection E as <-; vm_compute in O; [destruct O|]. destruct O as [<-|[]]. reflexivity.
        * destruct I as [<-|[]]; vm_compute in E; injection E as <-; vm_compute in O; destruct O.
        * destruct I.
    - intros k x v I E O. destruct k as [|[|k]]; cbn [ex_scope_who In] in I.
      + destruct I as [<-|[<-|[]]]; vm_compute in E; injection E as <-; [destruct O; reflexivity|]. eexists. split; [timeout 300 (vm_compute; reflexivity)|].
        intros [|[|j]] y D Iy; [destruct D; reflexivity| |destruct Iy]. destruct Iy as [<-|[]]. reflexivity.
      + destruct I as [<-|[]]; vm_compute in E; injection E as <-; destruct O; reflexivity.
      + destruct I. }
  split; [exact HO|]. split; [destruct R as (rs & R); exact (C78_hands _ _ _ _ _ _ _ _ _ _ (sp_safe _ _ _ SP) R HO)|]. split.
  { intros [|[|k]]; (constructor; [repeat constructor; cbn; lia|repeat constructor|now left|eexists; timeout 300 (vm_compute; reflexivity)]). }
  split; [reflexivity|]. split.
  { intros [|[|k]] fs rs a E; vm_compute in E; injection E as <- <-; cbn [f_state f_freed b_state st_heap length ex_scope_state]; intros L G;
      do 3 (destruct a as [|a]; [cbn in *; (destruct G; (lia || discriminate || auto))|]); lia. }
  repeat split; timeout 300 (vm_compute; reflexivity).
Qed.

Definition ex_shared_main : list (faction Z nat) := [ Act (Do (CZeros KRowMajor 2 2)); Act (Do (CScalarTimes 2%Z ByValue 0)) ].
Definition ex_shared_who (k : nat) : list nat := match k with 0%nat => [1%nat] | 1%nat => [1%nat] | _ => [] end.
Definition ex_shared_progs (k : nat) : list (faction Z nat) :=
  match k with 0%nat => [Act (Drop 0)] | 1%nat => [Act (Do (CGet 0 0 0)); Act (Drop 0)] | _ => [] end.
Lemma ex_shared_safe : safe_program ex_kernel Checked ex_shared_main.
Proof. constructor; [repeat constructor; cbn; lia|repeat constructor|now left|eexists; timeout 300 (vm_compute; reflexivity)]. Qed.

Definition ex_shared_state : fstate Z := Eval vm_compute in ex_scope_end (frun ex_kernel Checked finitial ex_shared_main).
Lemma ex_shared_all : forall k, safe_program ex_kernel Checked (ex_shared_main ++ map (refile (thread_names ex_shared_state ex_shared_who k)) (ex_shared_progs k)).
Proof. intros [|[|k]]; (constructor; [repeat constructor; cbn; lia|repeat constructor|now left|eexists; timeout 300 (vm_compute; reflexivity)]). Qed.

(** [kept_apart] is needed: the expression 2 * a, into which a matrix was moved, is handed to
    two threads. Each goes on as the first program could, and one destroys what the other
    reads. *)
Theorem C78_apart_needed : exists (main : list (faction Z nat)) fs rs rs' (P : process Z Z) who (progs : nat -> list (faction Z nat)) place sched,
  safe_program ex_kernel Checked main /\ frun ex_kernel Checked finitial main = Some (Ok (fs, rs)) /\
  process_run first_piece from_first last_first ex_scope_choose Checked (begin_process (fun _ => 1%Z)) main = Goes (P, rs') /\
  lends_apart (f_state fs) who /\
  (forall k, safe_program ex_kernel Checked (main ++ map (refile (thread_names fs who k)) (progs k))) /\
  holds from_first place fs P /\
  dturns first_piece from_first last_first ex_scope_choose' Checked
    (dlaunch (handed (f_state fs) who) place (y_mem (pr_bytes P)) (y_blocks (pr_bytes P)) (fun k => map erased (progs k))) sched = Undefined.
Proof.
  set (main := ex_shared_main).
  set (who := ex_shared_who).
  set (progs := ex_shared_progs).
  set (sched := [0%nat; 1%nat; 1%nat; 1%nat; 1%nat; 1%nat; 1%nat; 1%nat]).
  destruct (frun ex_kernel Checked finitial main) as [[[fs rs]| |]|] eqn:E; try (vm_compute in E; discriminate E).
  set (run := fun place => match process_run first_piece from_first last_first ex_scope_choose Checked (begin_process (fun _ => 1%Z)) main with
    | Goes (P, _) => dturns first_piece from_first last_first ex_scope_choose' Checked
        (dlaunch (handed (f_state fs) who) place (y_mem (pr_bytes P)) (y_blocks (pr_bytes P)) (fun k => map erased (progs k))) sched
    | _ => NoMemory end).
  assert (U : run (fun _ => 64%nat) = Undefined) by (unfold run; vm_compute in E; injection E as <- <-; timeout 300 (vm_compute; reflexivity)).
  pose proof ex_shared_safe as SP. fold main in SP.
  unfold run in U. assert (SN : match process_run first_piece from_first last_first ex_scope_choose Checked (begin_process (fun _ => 1%Z)) main with Goes (P, _) => y_blocks (pr_bytes P) = [(64%nat, 4)] | _ => True end) by (timeout 300 (vm_compute; reflexivity)).
  destruct (process_run first_piece from_first last_first ex_scope_choose Checked (begin_process (fun _ => 1%Z)) main) as [| | |[P rs']] eqn:EP; try discriminate U.
  assert (L : lends_apart (f_state fs) who).
  { vm_compute in E. injection E as <- <-. split.
    + intros [|[|k]] x H; repeat (destruct H as [<-|H]; [vm_compute; reflexivity|]); destruct H.
    + intros [|[|j]] [|[|k]] x y v Hjk Hx Hy Ev Wv; try (now destruct Hjk); try (now destruct Hx); try (now destruct Hy);
        repeat (destruct Hx as [<-|Hx]; [vm_compute in Ev; injection Ev as <-; discriminate Wv|]); destruct Hx. }
  destruct C60_example as (IM & _).

  destruct (C78_scopes _ _ _ _ first_piece from_first first_faithful ex_kernel last_first IM ex_scope_choose ex_scope_choose' Checked (fun _ => 1%Z) main fs rs rs' P
    (fun _ => []) (fun _ => None) (fun _ => []) SP E EP) as (place & H & _).
  { split; intros; contradiction. }
  { split; intros; contradiction. }
  { intros k. rewrite app_nil_r. exact SP. }
  exists main, fs, rs, rs', P, who, progs, (fun _ => 64%nat), sched.
  split; [exact SP|]. split; [exact E|]. split; [exact EP|]. split; [exact L|]. split; [|split; [|exact U]].
  - assert (X : fs = ex_shared_state) by (vm_compute in E; injection E as <- <-; reflexivity). rewrite X. exact ex_shared_all.
  - vm_compute in E. injection E as <- <-. destruct H as [H1 H2 H3 H4 H5 H6]. cbn [f_state b_state st_heap st_mats] in *.
    assert (P0 : place 0%nat = 64%nat).
    { assert (I : In (place 0%nat, 4) (y_blocks (pr_bytes P))) by (apply H5; exists 0%nat; eexists; split; [reflexivity|]; split; [discriminate|reflexivity]).
      rewrite SN in I. destruct I as [I|[]]. congruence. }
    constructor; cbn [f_state b_state st_heap st_mats].
    + rewrite H1. clear -P0. vm_compute. vm_compute in P0. now rewrite P0.
    + exact H2.
    + exact H3.
    + intros [|a] i v X; [rewrite <- P0; now apply H4|destruct a; discriminate X].
    + intros b. rewrite H5. split; intros ([|a] & l & X & Y & Z); try (destruct a; discriminate X); exists 0%nat, l; split; auto; split; auto; congruence.
    + intros [|[|a]] [|[|a']] l l' X X'; try discriminate; try (cbn in *; congruence).
Qed.
Print Assumptions C78_apart_needed.
