(** * Property C76: threads that destroy their matrices, on one array of bytes.

    The machine of [FlatDrops]: that of C74, where the threads also run destructors. What is
    freed goes back to the allocator of all threads, and another thread may get it while
    matrices of the first still point to it. What the threads do is compared with what each
    of them does alone ([alone_run]), in a memory without the allocations of the others. *)

From Coq Require Import Lia ZifyBool ZifyNat ZifyN Permutation.
From Verif Require Import Machine Layouts Memory Matrix MatMul Spec MatrixSpec ExprSpec ProductSpec.
From Verif Require Import Program HistorySpec Borrow Dealloc Threads Interleave Flat FlatThreads FlatDrops FlatDropProofs.
From Verif Require Import ZScalar Properties_Products Properties_Borrow Properties_Threads Properties_Interleave Properties_Flat Properties_FlatThreads.
Local Open Scope N_scope.

(** C76: whatever the schedule and wherever the allocator puts the memory, at every moment
    every thread has got the results that it gets alone, and has the same matrices; when it
    makes no call, every item that it can reach and has not freed is the same, and its
    memory is in use. *)
Theorem C76_alone : forall (T : Type) (SC : HScalar T) (St B : Type) (encode : T -> list B) (decode : list B -> T),
  faithful encode decode ->
  forall kern (code : gemm_args T -> prog T unit), implements code kern ->
  forall choose m p (acts : nat -> list (taction T St)) owner place M0 used0,
  laid_out decode p place M0 used0 -> in_memory p -> Threads.apart p -> owned_apart p owner ->
  (forall k, plain_actions kern m (alone p owner k) (acts k)) -> (forall k, exists x, alone_run kern m (alone p owner k) (acts k) = Ok x) ->
  forall sched M, dturns encode decode code choose m (dlaunch p place M0 used0 acts) sched = Goes M ->
  forall k, exists made fs rho,
    acts k = made ++ now_actions (dm_thread M k) ++ dt_left (dm_thread M k) /\
    alone_run kern m (alone p owner k) made = Ok (fs, dt_done (dm_thread M k)) /\
    dt_table (dm_thread M k) = map (move_matrix rho) (st_mats (b_state (f_state fs))) /\
    (dt_now (dm_thread M k) = None ->
       (forall x q v, In x (st_mats (b_state (f_state fs))) -> occupies x q ->
         hget (st_heap (b_state (f_state fs))) (fst q) (snd q) = Some v ->
         load decode (dm_mem M) (address (mkPlace (rho (fst q)) (snd q))) = v) /\
       (forall a l, nth_error (st_heap (b_state (f_state fs))) a = Some l -> l <> [] -> In (rho a, N.of_nat (length l)) (dm_used M))).
Proof. exact @c76_alone. Qed.
Print Assumptions C76_alone.

(** If no thread alone has undefined behaviour, no schedule has: in particular no destructor
    frees a block that is not in use. *)
Theorem C76_defined : forall (T : Type) (SC : HScalar T) (St B : Type) (encode : T -> list B) (decode : list B -> T),
  faithful encode decode ->
  forall kern (code : gemm_args T -> prog T unit), implements code kern ->
  forall choose m p (acts : nat -> list (taction T St)) owner place M0 used0,
  laid_out decode p place M0 used0 -> in_memory p -> Threads.apart p -> owned_apart p owner ->
  (forall k, plain_actions kern m (alone p owner k) (acts k)) -> (forall k, exists x, alone_run kern m (alone p owner k) (acts k) = Ok x) ->
  forall sched, dturns encode decode code choose m (dlaunch p place M0 used0 acts) sched = NoMemory \/
    exists M, dturns encode decode code choose m (dlaunch p place M0 used0 acts) sched = Goes M.
Proof. exact @c76_defined. Qed.
Print Assumptions C76_defined.

(** No two threads are ever about to access a common byte, one of them to write. *)
Theorem C76_races : forall (T : Type) (SC : HScalar T) (St B : Type) (encode : T -> list B) (decode : list B -> T),
  faithful encode decode ->
  forall kern (code : gemm_args T -> prog T unit), implements code kern ->
  forall choose m p (acts : nat -> list (taction T St)) owner place M0 used0,
  laid_out decode p place M0 used0 -> in_memory p -> Threads.apart p -> owned_apart p owner ->
  (forall k, plain_actions kern m (alone p owner k) (acts k)) -> (forall k, exists x, alone_run kern m (alone p owner k) (acts k) = Ok x) ->
  forall sched M, dturns encode decode code choose m (dlaunch p place M0 used0 acts) sched = Goes M -> ~ dbyte_race M.
Proof. exact @c76_races. Qed.
Print Assumptions C76_races.

(** Every access is one of an item of a block that is in use at that time: nothing that was
    freed is read or written. *)
Theorem C76_in_use : forall (T : Type) (SC : HScalar T) (St B : Type) (encode : T -> list B) (decode : list B -> T),
  faithful encode decode ->
  forall kern (code : gemm_args T -> prog T unit), implements code kern ->
  forall choose m p (acts : nat -> list (taction T St)) owner place M0 used0,
  laid_out decode p place M0 used0 -> in_memory p -> Threads.apart p -> owned_apart p owner ->
  (forall k, plain_actions kern m (alone p owner k) (acts k)) -> (forall k, exists x, alone_run kern m (alone p owner k) (acts k) = Ok x) ->
  forall sched M k a w, dturns encode decode code choose m (dlaunch p place M0 used0 acts) sched = Goes M ->
  dnext_visit (dm_thread M k) = Some (a, w) -> item_of (dm_used M) a.
Proof. exact @c76_in_use. Qed.
Print Assumptions C76_in_use.

(** No thread is ever about to free a byte that another is about to read or write. *)
Theorem C76_free_races : forall (T : Type) (SC : HScalar T) (St B : Type) (encode : T -> list B) (decode : list B -> T),
  faithful encode decode ->
  forall kern (code : gemm_args T -> prog T unit), implements code kern ->
  forall choose m p (acts : nat -> list (taction T St)) owner place M0 used0,
  laid_out decode p place M0 used0 -> in_memory p -> Threads.apart p -> owned_apart p owner ->
  (forall k, plain_actions kern m (alone p owner k) (acts k)) -> (forall k, exists x, alone_run kern m (alone p owner k) (acts k) = Ok x) ->
  forall sched M, dturns encode decode code choose m (dlaunch p place M0 used0 acts) sched = Goes M -> ~ free_race code m M.
Proof. exact @c76_free_races. Qed.
Print Assumptions C76_free_races.

(** Every block that a step frees is one of [next_frees], in any state of the threads. *)
Theorem C76_frees : forall (T : Type) (SC : HScalar T) (St B : Type) (encode : T -> list B) (decode : list B -> T)
    (code : gemm_args T -> prog T unit) choose m (M M' : dmachine T St B) k b,
  dturn encode decode code choose m M k = Goes M' -> In b (dm_used M) -> ~ In b (dm_used M') ->
  In b (next_frees code m (dm_thread M k)).
Proof. exact @c76_frees. Qed.
Print Assumptions C76_frees.

(** Every byte that a step changes is one that [dnext_visit] tells to be written, or one of a
    block that is handed out, which is in no block in use. *)
Theorem C76_writes : forall (T : Type) (SC : HScalar T) (St B : Type) (encode : T -> list B) (decode : list B -> T),
  faithful encode decode -> forall (code : gemm_args T -> prog T unit) choose m (M M' : dmachine T St B) k x,
  dturn encode decode code choose m M k = Goes M' -> dm_mem M' x <> dm_mem M x ->
  (exists a, dnext_visit (dm_thread M k) = Some (a, true) /\ a <= x < a + item_size) \/
  (exists b, dm_used M' = b :: dm_used M /\ in_block b x /\ forall b', In b' (dm_used M) -> ~ in_block b' x).
Proof. exact @c76_writes. Qed.
Print Assumptions C76_writes.

(** What a step does depends on no bytes but those that [dnext_visit] tells to be read. *)
Theorem C76_reads : forall (T : Type) (SC : HScalar T) (St B : Type) (encode : T -> list B) (decode : list B -> T)
    (code : gemm_args T -> prog T unit) choose m (M : dmachine T St B) mem k,
  (forall a x, dnext_visit (dm_thread M k) = Some (a, false) -> a <= x < a + item_size -> mem x = dm_mem M x) ->
  match dturn encode decode code choose m M k, dturn encode decode code choose m (mkDMachine mem (dm_used M) (dm_thread M)) k with
  | Goes M1, Goes M2 => dm_used M2 = dm_used M1 /\ forall j, dm_thread M2 j = dm_thread M1 j
  | NoMemory, NoMemory | Undefined, Undefined | Rejected, Rejected => True
  | _, _ => False
  end.
Proof. exact @c76_reads. Qed.
Print Assumptions C76_reads.

(** No two threads are ever about to free a common byte. *)
Theorem C76_frees_once : forall (T : Type) (SC : HScalar T) (St B : Type) (encode : T -> list B) (decode : list B -> T),
  faithful encode decode ->
  forall kern (code : gemm_args T -> prog T unit), implements code kern ->
  forall choose m p (acts : nat -> list (taction T St)) owner place M0 used0,
  laid_out decode p place M0 used0 -> in_memory p -> Threads.apart p -> owned_apart p owner ->
  (forall k, plain_actions kern m (alone p owner k) (acts k)) -> (forall k, exists x, alone_run kern m (alone p owner k) (acts k) = Ok x) ->
  forall sched M, dturns encode decode code choose m (dlaunch p place M0 used0 acts) sched = Goes M -> ~ double_free code m M.
Proof. exact @c76_frees_once. Qed.
Print Assumptions C76_frees_once.

(** If every thread alone frees all but the common memory, then when all threads are done
    the blocks in use are those of the common memory: nothing leaks. *)
Theorem C76_leaks : forall (T : Type) (SC : HScalar T) (St B : Type) (encode : T -> list B) (decode : list B -> T),
  faithful encode decode ->
  forall kern (code : gemm_args T -> prog T unit), implements code kern ->
  forall choose m p (acts : nat -> list (taction T St)) owner place M0 used0,
  laid_out decode p place M0 used0 -> in_memory p -> Threads.apart p -> owned_apart p owner ->
  (forall k, plain_actions kern m (alone p owner k) (acts k)) -> (forall k, exists x, alone_run kern m (alone p owner k) (acts k) = Ok x) ->
  (forall k fs rs a l, alone_run kern m (alone p owner k) (acts k) = Ok (fs, rs) ->
     nth_error (st_heap (b_state (f_state fs))) a = Some l -> l <> [] ->
     owner a = None /\ exists l0, nth_error (p_heap p) a = Some l0 /\ l0 <> []) ->
  forall sched M, dturns encode decode code choose m (dlaunch p place M0 used0 acts) sched = Goes M ->
  (forall k, dt_now (dm_thread M k) = None /\ dt_left (dm_thread M k) = []) ->
  forall b, In b (dm_used M) <->
    exists a l, nth_error (p_heap p) a = Some l /\ l <> [] /\ owner a = None /\ b = (place a, N.of_nat (length l)).
Proof. exact @c76_leaks. Qed.
Print Assumptions C76_leaks.

(** From every reachable state every thread can do all it has to do without help of the
    others, unless the allocator runs out of memory. *)
Theorem C76_finishes : forall (T : Type) (SC : HScalar T) (St B : Type) (encode : T -> list B) (decode : list B -> T),
  faithful encode decode ->
  forall kern (code : gemm_args T -> prog T unit), implements code kern ->
  forall choose m p (acts : nat -> list (taction T St)) owner place M0 used0,
  laid_out decode p place M0 used0 -> in_memory p -> Threads.apart p -> owned_apart p owner ->
  (forall k, plain_actions kern m (alone p owner k) (acts k)) -> (forall k, exists x, alone_run kern m (alone p owner k) (acts k) = Ok x) ->
  forall sched M k, dturns encode decode code choose m (dlaunch p place M0 used0 acts) sched = Goes M ->
  exists n, dturns encode decode code choose m M (repeat k n) = NoMemory \/
    exists M', dturns encode decode code choose m M (repeat k n) = Goes M' /\ dt_now (dm_thread M' k) = None /\ dt_left (dm_thread M' k) = [].
Proof. exact @c76_finishes. Qed.
Print Assumptions C76_finishes.

(** The pool of C74's example: two threads read the same two matrices (0, 1) and each has one
    of its own (2). The first moves its matrix into an expression, evaluates it, and destroys
    the expression, which frees the block at 128; the second moves its matrix into a sum that
    panics, so that the unwinding frees the block at 192, gets a block at 192 and later the
    one at 128, and destroys what it has. In the end only the common memory is in use. *)
Definition ex_drop_acts (k : nat) : list (taction Z nat) :=
  match k with
  | 0%nat => [ TCall (CMatmul 1%Z 0 1 0%Z 2); TCall (CScalarTimes 2%Z ByValue 2); TCall (CEval 3); TFree 3;
               TCall (CGet 4 0 0); TFree 4 ]
  | 1%nat => [ TCall (CSet 2 0 0 7%Z); TCall (CPlus ByValue ByReference 2 0); TCall (CEval 0); TCall (CEval 3); TFree 3;
               TCall (CEval 4); TFree 4; TCall (CZeros KRowMajor 2 2); TCall (CSet 6 1 1 5%Z); TCall (CGet 6 1 1);
               TFree 5; TFree 6 ]
  | _ => []
  end.
Definition ex_drop_owner (a : nat) : option nat := match a with 2%nat => Some 0%nat | 3%nat => Some 1%nat | _ => None end.
Definition ex_drop_choose (k n : nat) : nat :=
  match k, n with 0%nat, _ => 256%nat | 1%nat, 3%nat => 128%nat | 1%nat, 1%nat => 192%nat | _, _ => (320 + 64 * n)%nat end.
Definition ex_drop_run (n : nat) : effect (dmachine Z nat Z) :=
  dturns first_piece from_first last_first ex_drop_choose Checked
    (dlaunch (handed ex_lent ex_who) ex_flat_place ex_flat_memory ex_flat_used ex_drop_acts) (in_turn n).
Definition told_drop (k : nat) (e : effect (dmachine Z nat Z)) : option (list (result Z nat)) :=
  match e with Goes M => Some (dt_done (dm_thread M k)) | _ => None end.
Definition used_drop (e : effect (dmachine Z nat Z)) : option (list (nat * N)) :=
  match e with Goes M => Some (dm_used M) | _ => None end.
Definition left_drop (k : nat) (e : effect (dmachine Z nat Z)) : option (list (taction Z nat)) :=
  match e with Goes M => Some (now_actions (dm_thread M k) ++ dt_left (dm_thread M k)) | _ => None end.
Definition next_drop (k : nat) (e : effect (dmachine Z nat Z)) : option (N * bool) :=
  match e with Goes M => dnext_visit (dm_thread M k) | _ => None end.
Definition frees_drop (k : nat) (e : effect (dmachine Z nat Z)) : option (list (nat * N)) :=
  match e with Goes M => Some (next_frees last_first Checked (dm_thread M k)) | _ => None end.

Lemma ex_drop_owned : owned_apart (handed ex_lent ex_who) ex_drop_owner.
Proof.
  constructor.
  - intros [|[|k]] x a I Ia; cbn [handed p_tabs ex_who flat_map ex_lent b_state st_mats nth_error app] in I;
      repeat (destruct I as [<-|I]; [cbn in Ia; repeat (destruct Ia as [<-|Ia]; [reflexivity|]); contradiction|]); destruct I.
  - intros [|[|k]] x [a i] j I O E; cbn [handed p_tabs ex_who flat_map ex_lent b_state st_mats nth_error app] in I;
      repeat (destruct I as [<-|I]; [cbn in O; destruct O as (-> & _ & O); cbn in E; congruence|]); destruct I.
Qed.

Lemma ex_drop_plain : forall k, plain_actions ex_kernel Checked (alone (handed ex_lent ex_who) ex_drop_owner k) (ex_drop_acts k).
Proof.
  intros [|[|k]]; unfold ex_drop_acts; cbn [plain_actions]; try exact I.
  - split.
    + intros x y z g Ex Ey Ez Eg. vm_compute in Ex, Ey, Ez. injection Ex as <-. injection Ey as <-. injection Ez as <-.
      eapply C60_plain; [exact Eg|..]; try exact Logic.I; try reflexivity.
      intros q (Q & _). split; intros (Q' & _); rewrite Q in Q'; discriminate.
    + intros. repeat (split; [exact I|]; intros). exact I.
  - repeat (split; [exact I|]; intros). exact I.
Qed.

Example C76_example :
  faithful first_piece from_first /\ implements last_first ex_kernel /\
  laid_out from_first (handed ex_lent ex_who) ex_flat_place ex_flat_memory ex_flat_used /\
  in_memory (handed ex_lent ex_who) /\ Threads.apart (handed ex_lent ex_who) /\ owned_apart (handed ex_lent ex_who) ex_drop_owner /\
  (forall k, plain_actions ex_kernel Checked (alone (handed ex_lent ex_who) ex_drop_owner k) (ex_drop_acts k)) /\
  (forall k, exists x, alone_run ex_kernel Checked (alone (handed ex_lent ex_who) ex_drop_owner k) (ex_drop_acts k) = Ok x) /\
  (forall k fs rs a l, alone_run ex_kernel Checked (alone (handed ex_lent ex_who) ex_drop_owner k) (ex_drop_acts k) = Ok (fs, rs) ->
     nth_error (st_heap (b_state (f_state fs))) a = Some l -> l <> [] ->
     ex_drop_owner a = None /\ exists l0, nth_error (p_heap (handed ex_lent ex_who)) a = Some l0 /\ l0 <> []) /\
  used_drop (ex_drop_run 1) = Some ex_flat_used /\
  used_drop (ex_drop_run 5) = Some [(128%nat, 4); (64%nat, 6); (0%nat, 6)] /\
  used_drop (ex_drop_run 45) = Some [(448%nat, 6); (256%nat, 4); (192%nat, 6); (128%nat, 4); (64%nat, 6); (0%nat, 6)] /\
  used_drop (ex_drop_run 50) = Some [(448%nat, 6); (256%nat, 4); (192%nat, 6); (64%nat, 6); (0%nat, 6)] /\
  used_drop (ex_drop_run 60) = Some [(128%nat, 4); (448%nat, 6); (64%nat, 6); (0%nat, 6)] /\
  used_drop (ex_drop_run 70) = Some [(64%nat, 6); (0%nat, 6)] /\
  left_drop 0 (ex_drop_run 70) = Some [] /\ left_drop 1 (ex_drop_run 70) = Some [] /\
  told_drop 0 (ex_drop_run 70) = Some [RDone; RNew; RNew; RItem 20%Z] /\
  told_drop 1 (ex_drop_run 70) = Some [RDone; RPanicked; RNew; RNew; RNew; RNew; RDone; RItem 5%Z].
Proof.
  destruct C60_example as (IM & I & A & _).
  split; [exact first_faithful|]. split; [exact IM|]. split; [exact ex_flat_laid|]. split; [exact I|]. split; [exact A|]. split; [exact ex_drop_owned|].
  split; [exact ex_drop_plain|]. split; [intros [|[|k]]; eexists; timeout 300 (vm_compute; reflexivity)|]. split.
  { intros [|[|k]] fs rs a l E; vm_compute in E; injection E as <- <-; cbn [f_state b_state st_heap]; intros X N;
      (do 9 (destruct a as [|a]; [cbn [nth_error] in X; first [discriminate X|injection X as <-; first [congruence|split; [reflexivity|eexists; split; [reflexivity|discriminate]]]]|]));
      destruct a; discriminate X. }
  repeat split; timeout 300 (vm_compute; reflexivity).
Qed.

(** [owned_apart] is needed: safe code moves a matrix into the expression 2 * a, which is
    handed to two threads. It cannot be written, so that the threads are [apart], and each
    alone may read it and destroy it. Together one is about to read what the other is about
    to free, and the second destructor frees what is not in use. *)
Theorem C76_owned_needed : exists (acts : list (faction Z nat)) fs rs who (acts' : nat -> list (taction Z nat)) place M0 used0 sched sched' M,
  Forall safe_call (calls acts) /\ frun ex_kernel Checked finitial acts = Some (Ok (fs, rs)) /\ lends_apart (f_state fs) who /\
  let p := handed (f_state fs) who in let owner := fun _ => None in
  laid_out from_first p place M0 used0 /\ in_memory p /\ Threads.apart p /\
  (forall k, plain_actions ex_kernel Checked (alone p owner k) (acts' k)) /\
  (forall k, exists x, alone_run ex_kernel Checked (alone p owner k) (acts' k) = Ok x) /\
  (dturns first_piece from_first last_first ex_drop_choose Checked (dlaunch p place M0 used0 acts') sched = Goes M /\ free_race last_first Checked M) /\
  dturns first_piece from_first last_first ex_drop_choose Checked (dlaunch p place M0 used0 acts') sched' = Undefined.
Proof.
  set (acts := [ Act (Do (CZeros KRowMajor 2 2)); Act (Do (CScalarTimes 2%Z ByValue 0)) ] : list (faction Z nat)).
  set (who := fun k => match k with 0%nat => [1%nat] | 1%nat => [1%nat] | _ => [] end).
  set (acts' := fun k => match k with 0%nat => [TFree 0] | 1%nat => [TCall (CGet 0 0 0); TFree 0] | _ => [] end : list (taction Z nat)).
  destruct (frun ex_kernel Checked finitial acts) as [[[fs rs]| |]|] eqn:E; try (vm_compute in E; discriminate E).
  set (start := dlaunch (handed (f_state fs) who) (fun _ => 64%nat) (fun _ => 0%Z) [(64%nat, 4)] acts').
  vm_compute in E. injection E as <- <-.
  assert (V0 : next_drop 1 (dturns first_piece from_first last_first ex_drop_choose Checked start [1%nat]) = Some (64, false)) by (timeout 300 (vm_compute; reflexivity)).
  assert (V1 : frees_drop 0 (dturns first_piece from_first last_first ex_drop_choose Checked start [1%nat]) = Some [(64%nat, 4)]) by (timeout 300 (vm_compute; reflexivity)).
  destruct (dturns first_piece from_first last_first ex_drop_choose Checked start [1%nat]) as [| | |M] eqn:R; try discriminate V0.
  exists acts. do 2 eexists. exists who, acts', (fun _ => 64%nat), (fun _ => 0%Z), [(64%nat, 4)], [1%nat], [0%nat; 1%nat; 1%nat; 1%nat; 1%nat; 1%nat; 1%nat; 1%nat], M.
  split; [repeat constructor; cbn; lia|]. split; [timeout 300 (vm_compute; reflexivity)|]. cbn [f_state].
  split.
  { split.
    + intros [|[|k]] x H; repeat (destruct H as [<-|H]; [vm_compute; reflexivity|]); destruct H.
    + intros [|[|j]] [|[|k]] x y v Hjk Hx Hy Ev Wv; try (now destruct Hjk); try (now destruct Hx); try (now destruct Hy);
        repeat (destruct Hx as [<-|Hx]; [vm_compute in Ev; injection Ev as <-; discriminate Wv|]); destruct Hx. }
  cbv zeta. split; [|split; [|split; [|split; [|split; [|split]]]]].
  - constructor.
    + intros a i v H. assert (v = 0%Z) as ->; [|reflexivity]. unfold hget in H. destruct a as [|a]; [|destruct a; discriminate H].
      cbn [handed p_heap b_state st_heap nth_error] in H. apply nth_error_In in H. cbn in H. intuition congruence.
    + intros b. split.
      * intros [<-|[]]. exists 0%nat. eexists. split; [reflexivity|]. split; [discriminate|reflexivity].
      * intros ([|a] & l & X & _ & ->); cbn in X; [injection X as <-; now left|destruct a; discriminate X].
    + repeat constructor. auto.
    + intros [|a] [|a'] l l' X X' _ _ D; try congruence; cbn in X, X'; [destruct a'; discriminate X'|destruct a; discriminate X|destruct a; discriminate X].
    + intros [|[|k]] x [a i] I O; vm_compute in I; try destruct I as [<-|[]]; try (now destruct I);
        cbn in O; destruct O as (-> & O1 & O); unfold hget; cbn [fst snd handed p_heap b_state st_heap nth_error];
        intros N; apply nth_error_None in N; cbn [length] in N; lia.
    + intros [|[|k]] x b I Ib; vm_compute in I; try destruct I as [<-|[]]; try (now destruct I);
        (destruct Ib as [<-|[]]; eexists; split; reflexivity).
  - intros [|[|k]] x a Hx Ha; vm_compute in Hx; repeat (destruct Hx as [<-|Hx]; [vm_compute in Ha; subst a; vm_compute; lia|]); destruct Hx.
  - intros [|[|j]] k x y q D Ix Iy Wx; vm_compute in Ix; repeat (destruct Ix as [<-|Ix]; [discriminate Wx|]); destruct Ix.
  - intros [|[|k]]; cbn [acts' plain_actions]; repeat (split; [exact I|]; intros); exact I.
  - intros [|[|k]]; eexists; vm_compute; reflexivity.
  - split; [exact R|]. exists 0%nat, 1%nat, (64%nat, 4), 64, false, 64. change (item_size (T := Z)) with 8. cbn [next_drop frees_drop] in V0, V1. injection V1 as V1.
    rewrite V1. clear -V0. split; [discriminate|]. split; [now left|]. split; [exact V0|].
    unfold in_block. cbn [fst snd]. change (item_size (T := Z)) with 8. lia.
  - timeout 300 (vm_compute; reflexivity).
Qed.
Print Assumptions C76_owned_needed.

(** A step that frees two blocks, those of the operands of a sum that does not exist. *)
Definition ex_frees_thread : dthread Z nat :=
  mkDThread [MBase (mkBase (mkContainer VectorContainer (mkRegion 64 0 4)) (RowMajor (2, 2)) Dynamic Dynamic);
             MBase (mkBase (mkContainer VectorContainer (mkRegion 128 0 4)) (ColumnMajor (2, 2)) Dynamic Dynamic)]
    0 [TCall (CPlus ByValue ByValue 0 1)] None [].
Example C76_frees_example : exists M',
  dturn first_piece from_first last_first ex_drop_choose Checked
    (mkDMachine (fun _ => 0%Z) [(64%nat, 4); (128%nat, 4); (192%nat, 1)] (fun _ => ex_frees_thread)) 0 = Goes M' /\
  dm_used M' = [(192%nat, 1)] /\ next_frees last_first Checked ex_frees_thread = [(64%nat, 4); (128%nat, 4)].
Proof. eexists. split; [timeout 300 (vm_compute; reflexivity)|]. split; timeout 300 (vm_compute; reflexivity). Qed.

(** A step that writes the item at 88, the bytes 88 to 95, and one that hands out a block. *)
Example C76_writes_example :
  let start (o : call Z nat) := mkDMachine (fun _ => 0%Z) [(64%nat, 4)]
    (fun _ => mkDThread [MBase (mkBase (mkContainer VectorContainer (mkRegion 64 0 4)) (RowMajor (2, 2)) Dynamic Dynamic)] 0 [TCall o] None []) in
  let after n o := dturns first_piece from_first last_first (fun _ _ => 128%nat) Checked (start o) (repeat 0%nat n) in
  let look o n := match after n o with Goes M => Some (dnext_visit (dm_thread M 0%nat), dm_mem M 88, dm_used M) | _ => None end in
  look (CSet 0 1 1 5%Z) 1%nat = Some (Some (88, true), 0%Z, [(64%nat, 4)]) /\
  look (CSet 0 1 1 5%Z) 2%nat = Some (None, 5%Z, [(64%nat, 4)]) /\
  look (CGet 0 1 1) 1%nat = Some (Some (88, false), 0%Z, [(64%nat, 4)]) /\
  look (CZeros KRowMajor 1 3) 2%nat = Some (None, 0%Z, [(128%nat, 3); (64%nat, 4)]).
Proof. repeat split; timeout 300 (vm_compute; reflexivity). Qed.

(** A matrix in the hands of two threads, which both use and destroy it. *)
Definition ex_share_acts : list (faction Z nat) := [ Act (Do (CZeros KRowMajor 2 2)) ].
Definition ex_share_who (k : nat) : list nat := match k with 0%nat => [0%nat] | 1%nat => [0%nat] | _ => [] end.
Definition ex_share_threads (k : nat) : list (taction Z nat) :=
  match k with 0%nat => [TCall (CSet 0 1 1 5%Z); TFree 0] | 1%nat => [TCall (CGet 0 1 1); TFree 0] | _ => [] end.
Definition ex_share_state : fstate Z := Eval vm_compute in
  match frun ex_kernel Checked finitial ex_share_acts with Some (Ok (fs, _)) => fs | _ => finitial end.
Definition ex_share_run (sched : list nat) : effect (dmachine Z nat Z) :=
  dturns first_piece from_first last_first ex_drop_choose Checked
    (dlaunch (handed (f_state ex_share_state) ex_share_who) (fun _ => 64%nat) (fun _ => 0%Z) [(64%nat, 4)] ex_share_threads) sched.
Definition ex_share_look (sched : list nat) (k : nat) : option (N * bool) * option (list (nat * N)) :=
  (next_drop k (ex_share_run sched), frees_drop k (ex_share_run sched)).

Definition ex_share_two {A : Type} (x y z : A) (k : nat) : A := match k with 0%nat => x | 1%nat => y | _ => z end.
Lemma ex_share_seen : forall s v f, (forall k, ex_share_look s k = (v k, Some (f k))) ->
  exists M, ex_share_run s = Goes M /\ forall k, dnext_visit (dm_thread M k) = v k /\ next_frees last_first Checked (dm_thread M k) = f k.
Proof.
  intros s v f H. unfold ex_share_look in H. destruct (ex_share_run s) as [| | |M]; try (specialize (H 0%nat); discriminate H).
  exists M. split; [reflexivity|]. intros k. specialize (H k). cbn [next_drop frees_drop] in H. injection H as H1 H2. auto.
Qed.

(** The three things that C76 excludes do occur if threads share what they own: a read and a
    write of one item at the same time, an access to what is freed, and two destructors of one
    matrix. *)
Theorem C76_races_needed : exists (s1 s2 s3 : list nat) (M1 M2 M3 : dmachine Z nat Z),
  (exists rs, frun ex_kernel Checked finitial ex_share_acts = Some (Ok (ex_share_state, rs))) /\
  (forall k, exists x, alone_run ex_kernel Checked (alone (handed (f_state ex_share_state) ex_share_who) (fun _ => None) k) (ex_share_threads k) = Ok x) /\
  (ex_share_run s1 = Goes M1 /\ dbyte_race M1 /\ ~ free_race last_first Checked M1 /\ ~ double_free last_first Checked M1) /\
  (ex_share_run s2 = Goes M2 /\ free_race last_first Checked M2 /\ ~ dbyte_race M2 /\ ~ double_free last_first Checked M2) /\
  (ex_share_run s3 = Goes M3 /\ double_free last_first Checked M3 /\ ~ free_race last_first Checked M3 /\ ~ dbyte_race M3).
Proof.
  set (b := (64%nat, 4)).
  destruct (ex_share_seen [0%nat; 1%nat] (ex_share_two (Some (88, true)) (Some (88, false)) None) (ex_share_two [] [] [])) as (M1 & R1 & L1);
    [intros [|[|k]]; timeout 300 (vm_compute; reflexivity)|].
  destruct (ex_share_seen [0%nat; 1%nat; 0%nat; 0%nat] (ex_share_two None (Some (88, false)) None) (ex_share_two [b] [] [])) as (M2 & R2 & L2);
    [intros [|[|k]]; timeout 300 (vm_compute; reflexivity)|].
  destruct (ex_share_seen [0%nat; 1%nat; 0%nat; 0%nat; 1%nat; 1%nat] (ex_share_two None None None) (ex_share_two [b] [b] [])) as (M3 & R3 & L3);
    [intros [|[|k]]; timeout 300 (vm_compute; reflexivity)|].
  exists [0%nat; 1%nat], [0%nat; 1%nat; 0%nat; 0%nat], [0%nat; 1%nat; 0%nat; 0%nat; 1%nat; 1%nat], M1, M2, M3.
  split; [eexists; timeout 300 (vm_compute; reflexivity)|]. split; [intros [|[|k]]; eexists; timeout 300 (vm_compute; reflexivity)|].
  assert (IB : @in_block Z _ b 88) by (unfold in_block; cbn [fst snd b]; change (item_size (T := Z)) with 8; lia).
  split; [|split].
  - split; [exact R1|]. clear R1 R2 R3 L2 L3. split; [|split].
    + exists 0%nat, 1%nat, 88, true, 88, false, 88. change (item_size (T := Z)) with 8. split; [discriminate|]. split; [apply L1|]. split; [apply L1|]. split; [lia|]. split; [lia|]. now left.
    + intros (j & k & c & a & w & x & _ & I & _). rewrite (proj2 (L1 j)) in I. destruct j as [|[|j]]; destruct I.
    + intros (j & k & c & c' & x & _ & I & _). rewrite (proj2 (L1 j)) in I. destruct j as [|[|j]]; destruct I.
  - split; [exact R2|]. clear R1 R2 R3 L1 L3. split; [|split].
    + exists 0%nat, 1%nat, b, 88, false, 88. split; [discriminate|]. split; [rewrite (proj2 (L2 0%nat)); now left|]. split; [apply L2|]. split; [exact IB|].
      change (item_size (T := Z)) with 8. lia.
    + intros (j & k & a & w & a' & w' & x & D & J & K & _). rewrite (proj1 (L2 j)) in J. rewrite (proj1 (L2 k)) in K.
      destruct j as [|[|j]], k as [|[|k]]; try discriminate J; try discriminate K. now destruct D.
    + intros (j & k & c & c' & x & D & J & K & _). rewrite (proj2 (L2 j)) in J. rewrite (proj2 (L2 k)) in K.
      destruct j as [|[|j]], k as [|[|k]]; try (now destruct J); try (now destruct K).
  - split; [exact R3|]. clear R1 R2 R3 L1 L2. split; [|split].
    + exists 0%nat, 1%nat, b, b, 88. split; [discriminate|]. split; [rewrite (proj2 (L3 0%nat)); now left|]. split; [rewrite (proj2 (L3 1%nat)); now left|]. auto.
    + intros (j & k & c & a & w & x & _ & _ & K & _). rewrite (proj1 (L3 k)) in K. destruct k as [|[|k]]; discriminate K.
    + intros (j & k & a & w & a' & w' & x & _ & J & _). rewrite (proj1 (L3 j)) in J. destruct j as [|[|j]]; discriminate J.
Qed.
Print Assumptions C76_races_needed.
