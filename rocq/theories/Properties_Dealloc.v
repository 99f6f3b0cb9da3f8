(** * Property C54: freed memory.

    The histories of [Dealloc] are those of [Borrow] with Rust's destructors: memory
    is freed when its owner is dropped, goes out of scope or is moved into a call that
    panics. [frun] is [None] for histories that the ownership rules do not admit. *)

From Coq Require Import Lia.
From Verif Require Import Machine Layouts Memory Matrix MatMul Spec MatrixSpec ExprSpec ProductSpec.
From Verif Require Import Program HistorySpec Borrow Dealloc DeallocProofs.
From Verif Require Import ZScalar Properties_Products.
Local Open Scope N_scope.

(** C54, first part: freeing is invisible. Without raw pointers every history behaves
    as if no memory was ever freed: it returns the same, panics and is undefined
    exactly then, and memory that was not freed is the same. No ends of scopes are
    needed for a history to be admitted. *)
Theorem C54_invisible : forall (T : Type) (SC : HScalar T) (St : Type) kern m (acts : list (faction T St)),
  Forall no_pointers (kept acts) ->
  (forall o, frun kern m finitial acts = Some o ->
     exists o', brun kern m binitial (kept acts) = Some o' /\ same_outcome o o') /\
  (forall acts' o', acts = map Act acts' -> brun kern m binitial acts' = Some o' ->
     exists o, frun kern m finitial acts = Some o).
Proof. exact @c54_same. Qed.
Print Assumptions C54_invisible.

(** Safe calls are never undefined, so nothing is used after it was freed and nothing
    is freed twice. *)
Theorem C54_safe : forall (T : Type) (SC : HScalar T) (St : Type) kern m (acts : list (faction T St)),
  Forall safe_call (calls acts) -> m = Checked \/ no_wrap_history kern m (@initial T) (calls acts) ->
  forall o, frun kern m finitial acts = Some o -> exists fs rs, o = Ok (fs, rs).
Proof. exact @c54_safe. Qed.
Print Assumptions C54_safe.

(** At any time an allocation was freed once, or exactly one value that exists will
    free it. What can be used was not freed. If no value exists any more, all is
    freed. *)
Theorem C54_freed_once : forall (T : Type) (SC : HScalar T) (St : Type) kern m (acts : list (faction T St)) fs rs,
  Forall no_pointers (kept acts) -> frun kern m finitial acts = Some (Ok (fs, rs)) ->
  let st := b_state (f_state fs) in
  NoDup (f_freed fs) /\
  (forall a, (a < length (st_heap st))%nat ->
     In a (f_freed fs) /\ still_owned (f_gone fs) 0 (st_mats st) a = 0%nat \/
     ~ In a (f_freed fs) /\ still_owned (f_gone fs) 0 (st_mats st) a = 1%nat) /\
  (forall y w a, usable (f_state fs) y w -> lives_in a w -> ~ In a (f_freed fs)) /\
  ((forall x, (x < length (st_mats st))%nat -> In x (f_gone fs)) ->
     forall a, (a < length (st_heap st))%nat -> In a (f_freed fs)).
Proof. exact @c54_freed. Qed.
Print Assumptions C54_freed_once.

(** No leak: every history can be ended by drops and ends of scopes that free all. *)
Theorem C54_no_leak : forall (T : Type) (SC : HScalar T) (St : Type) kern m (acts : list (faction T St)) fs rs,
  Forall no_pointers (kept acts) -> frun kern m finitial acts = Some (Ok (fs, rs)) ->
  exists acts' fs' rs', Forall ending acts' /\ frun kern m finitial (acts ++ acts') = Some (Ok (fs', rs')) /\
    length (st_heap (b_state (f_state fs'))) = length (st_heap (b_state (f_state fs))) /\
    forall a, (a < length (st_heap (b_state (f_state fs))))%nat -> In a (f_freed fs').
Proof. exact @c54_leak. Qed.
Print Assumptions C54_no_leak.

(** Only constructors of matrices that own their memory, eval and dot allocate, one
    allocation each, and only if they return. *)
Theorem C54_allocations : forall (T : Type) (SC : HScalar T) (St : Type) kern m st (o : call T St) st' r,
  step kern m st o = Ok (st', r) ->
  length (st_heap st') = ((match r with RNew => if allocates o then 1 else 0 | _ => 0 end) + length (st_heap st))%nat.
Proof. exact @step_lengths. Qed.
Print Assumptions C54_allocations.

(** For the examples: what was returned, the freed allocations and the values gone. *)
Definition report {T St : Type} (o : option (outcome (fstate T * list (result T St)))) :
  option (list (result T St) * list nat * list nat) :=
  match o with Some (Ok (fs, rs)) => Some (rs, f_freed fs, f_gone fs) | _ => None end.

(** A sum that owns its operands is evaluated and dropped; a sum that would own two
    matrices of different size panics and frees both; a block is dropped and frees
    nothing; a sum that owns one matrix and borrows another cannot be used after the
    lender was written to, and frees its own part at the end of its scope. *)
Definition ex_freeing : list (faction Z nat) :=
  [ Act (Do (CZeros KRowMajor 2 2)); Act (Do (CZeros KRowMajor 2 2)); Act (Do (CSet 0 0 1 5%Z)); Act (Do (CPlus ByValue ByValue 0 1));
    Act (Do (CEval 2)); Act (Drop 2); Act (Do (CGet 3 0 1));
    Act (Do (CZeros KRowMajor 2 2)); Act (Do (CZeros KRowMajor 3 3)); Act (Do (CPlus ByValue ByValue 4 5));
    Act (Do (CBlock false 3 (0, 0) (1, 2))); Act (Do (CGet 6 0 1)); Act (Drop 6); Act (Do (CGet 3 0 1));
    Act (Do (CZeros KRowMajor 2 2)); Act (Do (CPlus ByValue ByReference 7 3)); Act (Do (CGet 8 0 1));
    Act (Do (CSet 3 0 1 7%Z)); ScopeEnd 8; Act (Do (CGet 3 0 1)); Act (Drop 3) ].

Example C54_example : Forall safe_call (calls ex_freeing) /\ Forall no_pointers (kept ex_freeing) /\
  report (frun ex_kernel Checked finitial ex_freeing) =
    Some ([RNew; RNew; RDone; RNew; RNew; RDone; RItem 5%Z; RNew; RNew; RPanicked; RNew; RItem 5%Z; RDone; RItem 5%Z;
           RNew; RNew; RItem 5%Z; RDone; RItem 7%Z; RDone], [2; 5; 4; 3; 1; 0]%nat, [3; 8; 7; 6; 5; 4; 2; 0; 1]%nat) /\
  report (frun ex_kernel Checked finitial (firstn 18 ex_freeing ++ [Act (Do (CGet 8 0 1))])) = None /\
  report (frun ex_kernel Checked finitial (firstn 6 ex_freeing ++ [ScopeEnd 2])) = None.
Proof.
  split; [repeat constructor; cbn; lia|]. split; [repeat constructor|].
  split; [timeout 300 (vm_compute; reflexivity)|]. split; timeout 300 (vm_compute; reflexivity).
Qed.

(** With raw pointers it is false: what [from_pointer] returns outlives the memory, and
    reading it is undefined; without freeing it would not be. *)
Theorem C54_pointers_needed : exists acts : list (action Z nat),
  brun ex_kernel Checked binitial acts <> Some UB /\ (exists o, brun ex_kernel Checked binitial acts = Some o) /\
  frun ex_kernel Checked finitial (map Act acts) = Some UB.
Proof.
  exists [Do (CZeros KRowMajor 2 2); Do (CFromPointer false ByRow 0 0 (2, 2)); Drop 0; Do (CGet 1 0 0)].
  assert (E : exists bs rs, brun ex_kernel Checked binitial [Do (CZeros KRowMajor 2 2); Do (CFromPointer false ByRow 0 0 (2, 2)); Drop 0; Do (CGet (St := nat) 1 0 0)]
     = Some (Ok (bs, rs))) by (do 2 eexists; timeout 300 (vm_compute; reflexivity)).
  destruct E as (bs & rs & E). rewrite E. split; [discriminate|]. split; [eauto|]. timeout 300 (vm_compute; reflexivity).
Qed.
Print Assumptions C54_pointers_needed.

(** Freeing the same memory twice would be undefined. *)
Example C54_double_free :
  match free (T := Z) finitial 0%nat with Ok fs => free fs 0%nat = UB /\ f_freed fs = [0%nat] | _ => False end.
Proof. split; reflexivity. Qed.

(** What [same_outcome] demands: the same results, the same table, and memory that was not
    freed unchanged. *)
Example C54_same_outcome : forall (fs : fstate Z) (bs : bstate Z) (r r' : list (result Z nat)),
  (same_outcome (Ok (fs, r)) (Ok (bs, r')) -> r = r') /\
  (same_outcome (Ok (fs, r)) (Ok (bs, r')) -> st_mats (b_state (f_state fs)) = st_mats (b_state bs)) /\
  (same_outcome (Ok (fs, r)) (Ok (bs, r')) -> forall a, ~ In a (f_freed fs) ->
     nth_error (st_heap (b_state (f_state fs))) a = nth_error (st_heap (b_state bs)) a) /\
  ~ same_outcome (Ok (fs, r)) Panic /\ ~ same_outcome UB (Ok (bs, r')) /\ ~ same_outcome (St := nat) (T := Z) Panic UB.
Proof.
  intros fs bs r r'. cbn [same_outcome]. split; [tauto|]. split; [tauto|]. split; [|tauto].
  intros (_ & _ & _ & _ & H). exact H.
Qed.
