(** * Property C77: safe programs as threads on one array of bytes.

    The threads of [FlatDrops] are programs of safe code that the borrow checker accepts
    ([safe_program]); each begins with nothing, makes its own matrices and runs its
    destructors. They share the bytes and the allocator. *)

From Coq Require Import Lia ZifyBool ZifyNat ZifyN.
From Verif Require Import Machine Layouts Memory Matrix MatMul Spec MatrixSpec ExprSpec ProductSpec.
From Verif Require Import Program HistorySpec Borrow Dealloc Threads Interleave Flat FlatThreads FlatDrops FlatPrograms FlatProgramProofs.
From Verif Require Import ZScalar Properties_Products Properties_Borrow Properties_Threads Properties_Interleave Properties_Flat Properties_FlatThreads.
From Verif Require Import Properties_FlatDrops.
Local Open Scope N_scope.

(** C77: whatever the schedule and wherever the allocator puts the memory, nothing is
    undefined: the only other way to end is that there is no memory. *)
Theorem C77_defined : forall (T : Type) (SC : HScalar T) (St B : Type) (encode : T -> list B) (decode : list B -> T),
  faithful encode decode ->
  forall kern (code : gemm_args T -> prog T unit), implements code kern ->
  forall choose m (progs : nat -> list (faction T St)) place M0, (forall k, safe_program kern m (progs k)) ->
  forall sched,
  let e := dturns encode decode code choose m (dlaunch no_pool place M0 [] (fun k => map erased (progs k))) sched in
  e = NoMemory \/ exists M, e = Goes M.
Proof. exact @c77_defined. Qed.
Print Assumptions C77_defined.

(** At every moment every thread has got the results that its program gets by itself, with
    names for allocations and a memory without end (see C54), and has the same matrices; when
    it makes no call, the items are the same, and the memory that it did not free is in use. *)
Theorem C77_alone : forall (T : Type) (SC : HScalar T) (St B : Type) (encode : T -> list B) (decode : list B -> T),
  faithful encode decode ->
  forall kern (code : gemm_args T -> prog T unit), implements code kern ->
  forall choose m (progs : nat -> list (faction T St)) place M0, (forall k, safe_program kern m (progs k)) ->
  forall sched M, dturns encode decode code choose m (dlaunch no_pool place M0 [] (fun k => map erased (progs k))) sched = Goes M ->
  forall k, exists made left fs rs rho,
    progs k = made ++ left /\ map erased left = now_actions (dm_thread M k) ++ dt_left (dm_thread M k) /\
    frun kern m finitial made = Some (Ok (fs, rs)) /\ dt_done (dm_thread M k) = call_results made rs /\
    dt_table (dm_thread M k) = map (move_matrix rho) (st_mats (b_state (f_state fs))) /\
    (dt_now (dm_thread M k) = None ->
       (forall x q v, In x (st_mats (b_state (f_state fs))) -> occupies x q ->
         hget (st_heap (b_state (f_state fs))) (fst q) (snd q) = Some v ->
         load decode (dm_mem M) (address (mkPlace (rho (fst q)) (snd q))) = v) /\
       (forall a l, nth_error (st_heap (b_state (f_state fs))) a = Some l -> l <> [] -> In (rho a, N.of_nat (length l)) (dm_used M))).
Proof. exact @c77_alone. Qed.
Print Assumptions C77_alone.

(** No two threads are ever about to access a common byte, one of them to write; none is
    about to free what another is about to access or to free. *)
Theorem C77_races : forall (T : Type) (SC : HScalar T) (St B : Type) (encode : T -> list B) (decode : list B -> T),
  faithful encode decode ->
  forall kern (code : gemm_args T -> prog T unit), implements code kern ->
  forall choose m (progs : nat -> list (faction T St)) place M0, (forall k, safe_program kern m (progs k)) ->
  forall sched M, dturns encode decode code choose m (dlaunch no_pool place M0 [] (fun k => map erased (progs k))) sched = Goes M ->
  ~ dbyte_race M /\ ~ free_race code m M /\ ~ double_free code m M.
Proof. exact @c77_races. Qed.
Print Assumptions C77_races.

(** Every access is one of an item of a block that is in use at that time. *)
Theorem C77_in_use : forall (T : Type) (SC : HScalar T) (St B : Type) (encode : T -> list B) (decode : list B -> T),
  faithful encode decode ->
  forall kern (code : gemm_args T -> prog T unit), implements code kern ->
  forall choose m (progs : nat -> list (faction T St)) place M0, (forall k, safe_program kern m (progs k)) ->
  forall sched M k a w, dturns encode decode code choose m (dlaunch no_pool place M0 [] (fun k => map erased (progs k))) sched = Goes M ->
  dnext_visit (dm_thread M k) = Some (a, w) -> item_of (dm_used M) a.
Proof. exact @c77_in_use. Qed.
Print Assumptions C77_in_use.

(** If every program frees all it allocates, then nothing is in use when all are done. *)
Theorem C77_leaks : forall (T : Type) (SC : HScalar T) (St B : Type) (encode : T -> list B) (decode : list B -> T),
  faithful encode decode ->
  forall kern (code : gemm_args T -> prog T unit), implements code kern ->
  forall choose m (progs : nat -> list (faction T St)) place M0, (forall k, safe_program kern m (progs k)) ->
  (forall k fs rs a, frun kern m finitial (progs k) = Some (Ok (fs, rs)) ->
     (a < length (st_heap (b_state (f_state fs))))%nat -> In a (f_freed fs)) ->
  forall sched M, dturns encode decode code choose m (dlaunch no_pool place M0 [] (fun k => map erased (progs k))) sched = Goes M ->
  (forall k, dt_now (dm_thread M k) = None /\ dt_left (dm_thread M k) = []) -> dm_used M = [].
Proof. exact @c77_leaks. Qed.
Print Assumptions C77_leaks.

(** Every program without raw pointers does, if all its matrices leave their scopes. *)
Theorem C77_ends : forall (T : Type) (SC : HScalar T) (St : Type) (kern : kernel T) m (acts : list (faction T St)),
  safe_program kern m acts -> Forall no_pointers (kept acts) ->
  exists acts', Forall ending acts' /\ safe_program kern m (acts ++ acts') /\
    forall fs rs a, frun kern m finitial (acts ++ acts') = Some (Ok (fs, rs)) ->
      (a < length (st_heap (b_state (f_state fs))))%nat -> In a (f_freed fs).
Proof. exact @c77_ends. Qed.
Print Assumptions C77_ends.

(** From every reachable state every thread can do all it has to do without help of the
    others, unless the allocator runs out of memory. *)
Theorem C77_finishes : forall (T : Type) (SC : HScalar T) (St B : Type) (encode : T -> list B) (decode : list B -> T),
  faithful encode decode ->
  forall kern (code : gemm_args T -> prog T unit), implements code kern ->
  forall choose m (progs : nat -> list (faction T St)) place M0, (forall k, safe_program kern m (progs k)) ->
  forall sched M k, dturns encode decode code choose m (dlaunch no_pool place M0 [] (fun k => map erased (progs k))) sched = Goes M ->
  exists n, dturns encode decode code choose m M (repeat k n) = NoMemory \/
    exists M', dturns encode decode code choose m M (repeat k n) = Goes M' /\ dt_now (dm_thread M' k) = None /\ dt_left (dm_thread M' k) = [].
Proof. exact @c77_finishes. Qed.
Print Assumptions C77_finishes.

(** The threads of C76 that come from programs do alone what the programs do: from states
    with the same matrices and memory, also those in which the programs go wrong. *)
Theorem C77_same : forall (T : Type) (SC : HScalar T) (St : Type) (kern : kernel T) m (acts : list (faction T St)) fs gs o,
  same_memory fs gs -> frun kern m fs acts = Some o ->
  match o with
  | Ok (fs', rs) => exists gs', alone_run kern m gs (map erased acts) = Ok (gs', call_results acts rs) /\ same_memory fs' gs'
  | Panic => alone_run kern m gs (map erased acts) = Panic
  | UB => alone_run kern m gs (map erased acts) = UB
  end.
Proof. exact @same_run. Qed.
Print Assumptions C77_same.

(** Two programs. The first doubles a matrix, evaluates and destroys what it has; the second
    moves a matrix into a sum that panics, which frees it, and gets memory that the first had. *)
Definition ex_programs (k : nat) : list (faction Z nat) :=
  match k with
  | 0%nat => [ Act (Do (CZeros KRowMajor 2 2)); Act (Do (CSet 0 1 1 4%Z)); Act (Do (CScalarTimes 2%Z ByValue 0));
               Act (Do (CEval 1)); Act (Drop 1); Act (Do (CGet 2 1 1)); Act (Drop 2) ]
  | 1%nat => [ Act (Do (CZeros KRowMajor 2 2)); Act (Do (CZeros KRowMajor 2 3)); Act (Do (CPlus ByValue ByReference 0 1));
               Act (Do (CSet 1 0 0 3%Z)); Act (Do (CRefMut 1)); Act (Do (CEval 1)); Act (Do (CGet 3 0 0)); ScopeEnd 2; Act (Drop 1); Act (Drop 3) ]
  | _ => []
  end.
Definition ex_programs_choose (k n : nat) : nat :=
  match k, n with 0%nat, 0%nat => 64%nat | 0%nat, _ => 128%nat | 1%nat, 0%nat => 192%nat | 1%nat, 1%nat => 256%nat | _, _ => 64%nat end.
Definition ex_programs_run (sched : list nat) : effect (dmachine Z nat Z) :=
  dturns first_piece from_first last_first ex_programs_choose Checked
    (dlaunch no_pool (fun a => a) (fun _ => 1%Z) [] (fun k => map erased (ex_programs k))) sched.
Definition ex_programs_turns (i j : nat) : list nat := in_turn 8 ++ repeat 0%nat i ++ repeat 1%nat j.

Example C77_example :
  faithful first_piece from_first /\ implements last_first ex_kernel /\ (forall k, safe_program ex_kernel Checked (ex_programs k)) /\
  (forall k fs rs a, frun ex_kernel Checked finitial (ex_programs k) = Some (Ok (fs, rs)) ->
     (a < length (st_heap (b_state (f_state fs))))%nat -> In a (f_freed fs)) /\
  Forall no_pointers (kept (ex_programs 0)) /\
  used_drop (ex_programs_run (in_turn 5)) = Some [(256%nat, 6); (192%nat, 4); (64%nat, 4)] /\
  used_drop (ex_programs_run (ex_programs_turns 0 0)) = Some [(256%nat, 6); (64%nat, 4)] /\
  used_drop (ex_programs_run (ex_programs_turns 14 0)) = Some [(128%nat, 4); (256%nat, 6)] /\
  used_drop (ex_programs_run (ex_programs_turns 40 0)) = Some [(256%nat, 6)] /\
  used_drop (ex_programs_run (ex_programs_turns 40 20)) = Some [(64%nat, 6); (256%nat, 6)] /\
  used_drop (ex_programs_run (ex_programs_turns 40 40)) = Some [] /\
  ex_programs_run (in_turn 20) = NoMemory /\
  left_drop 0 (ex_programs_run (ex_programs_turns 40 40)) = Some [] /\ left_drop 1 (ex_programs_run (ex_programs_turns 40 40)) = Some [] /\
  told_drop 0 (ex_programs_run (ex_programs_turns 40 40)) = Some [RNew; RDone; RNew; RNew; RItem 8%Z] /\
  told_drop 1 (ex_programs_run (ex_programs_turns 40 40)) = Some [RNew; RNew; RPanicked; RDone; RNew; RNew; RItem 3%Z].
Proof.
  destruct C60_example as (IM & _). split; [exact first_faithful|]. split; [exact IM|]. split.
  { intros [|[|k]]; (constructor; [repeat constructor; cbn; lia|repeat constructor|now left|eexists; timeout 300 (vm_compute; reflexivity)]). }
  split.
  { intros [|[|k]] fs rs a E; vm_compute in E; injection E as <- <-; cbn [f_state f_freed b_state st_heap length]; intros L;
      do 3 (destruct a as [|a]; [cbn; (lia || auto)|]); lia. }
  split; [repeat constructor|]. repeat split; timeout 300 (vm_compute; reflexivity).
Qed.

(** The borrow checker is needed: the first program reads a matrix that it dropped, which
    [frun] does not admit; meanwhile the second has the memory and writes it. *)
Definition ex_stale (k : nat) : list (faction Z nat) :=
  match k with
  | 0%nat => [ Act (Do (CZeros KRowMajor 2 2)); Act (Drop 0); Act (Do (CGet 0 0 0)) ]
  | 1%nat => [ Act (Do (CZeros KRowMajor 2 2)); Act (Do (CSet 0 0 0 5%Z)) ]
  | _ => []
  end.
Theorem C77_accepted_needed : exists (progs : nat -> list (faction Z nat)) sched M,
  (forall k, Forall safe_call (calls (progs k)) /\ Forall no_split (kept (progs k))) /\
  (forall k, k <> 0%nat -> safe_program ex_kernel Checked (progs k)) /\ frun ex_kernel Checked finitial (progs 0%nat) = None /\
  dturns first_piece from_first last_first (fun _ _ => 64%nat) Checked
    (dlaunch no_pool (fun a => a) (fun _ => 1%Z) [] (fun k => map erased (progs k))) sched = Goes M /\ dbyte_race M.
Proof.
  set (sched := repeat 0%nat 5 ++ repeat 1%nat 4).
  set (e := dturns first_piece from_first last_first (fun _ _ => 64%nat) Checked
    (dlaunch no_pool (fun a => a) (fun _ => 1%Z) [] (fun k => map erased (ex_stale k))) sched).
  assert (V0 : next_drop 0 e = Some (64, false)) by (timeout 300 (vm_compute; reflexivity)).
  assert (V1 : next_drop 1 e = Some (64, true)) by (timeout 300 (vm_compute; reflexivity)).
  destruct e as [| | |M] eqn:R; try discriminate V0. exists ex_stale, sched, M. split; [|split; [|split; [|split]]].
  - intros [|[|k]]; split; repeat constructor; cbn; lia.
  - intros [|[|k]] NZ; [congruence| |]; (constructor; [repeat constructor; cbn; lia|repeat constructor|now left|eexists; timeout 300 (vm_compute; reflexivity)]).
  - timeout 300 (vm_compute; reflexivity).
  - exact R.
  - exists 0%nat, 1%nat, 64, false, 64, true, 64. change (item_size (T := Z)) with 8. cbn [next_drop] in V0, V1.
    split; [discriminate|]. split; [exact V0|]. split; [exact V1|]. split; [lia|]. split; [lia|]. now right.
Qed.
Print Assumptions C77_accepted_needed.
