(** * Property C71: the aliasing rules of Rust.

    The rules are those of Stacked Borrows, see [Stacked]. [trun] is [brun] with the
    events of the history: allocations, accesses, new references and the ends of
    owners. [respects] says that no event breaks the rules in their strict form,
    [sb_respects] the same of the rules as in the paper. *)

From Coq Require Import Lia.
From Verif Require Import Machine Layouts Memory Matrix MatMul Spec MatrixSpec ExprSpec ProductSpec.
From Verif Require Import Program HistorySpec Borrow BorrowFacts BorrowProofs.
From Verif Require Import AccessProofs Stacked StackedHistory StackedSplit StackedEvents StackedReads StackedRules.
From Verif Require Import ZScalar Properties_Products Properties_Borrow.
Local Open Scope N_scope.

(** The events are those of the histories of C48 - C51: each of them has events. *)
Theorem C71_traced : forall (T : Type) (SC : HScalar T) (St : Type) kern eager m (acts : list (action T St)) bs rs,
  brun kern m binitial acts = Some (Ok (bs, rs)) <->
  exists ts es, trun kern eager m tinitial acts = Some (Ok (ts, es, rs)) /\ t_state ts = bs.
Proof. exact @traced. Qed.
Print Assumptions C71_traced.

(** C71: no history of calls that Rust admits breaks the aliasing rules. The full
    statement, for all histories of safe calls, is that of the next theorem without
    [apart_splits]; it is false, see below. [eager]: whether [dim] and the like are taken to
    reach the data, as they do in matrices that hold their entries in an array. *)
Theorem C71_apart_partial : forall (T : Type) (SC : HScalar T) (St : Type) kern eager m (acts : list (action T St)) ts es rs,
  Forall no_pointers acts -> apart_splits kern m binitial acts ->
  trun kern eager m tinitial acts = Some (Ok (ts, es, rs)) -> respects es.
Proof. exact @respected. Qed.
Print Assumptions C71_apart_partial.

(** The strict rules forbid all that those of the paper forbid. *)
Theorem C71_rules : forall es, respects es -> sb_respects es.
Proof. exact stricter. Qed.
Print Assumptions C71_rules.

(** Histories without splits, unchecked accesses included, in both builds. *)
Theorem C71_no_split_partial : forall (T : Type) (SC : HScalar T) (St : Type) kern eager m (acts : list (action T St)) ts es rs,
  Forall no_pointers acts -> Forall no_split acts ->
  trun kern eager m tinitial acts = Some (Ok (ts, es, rs)) -> respects es.
Proof. intros. eapply respected; eauto using no_splits_apart. Qed.
Print Assumptions C71_no_split_partial.

(** The events leave nothing out. The memory that a matrix is taken to reach is that of its
    containers, and each container is reached with a tag of its own. *)
Theorem C71_held : forall (T : Type) (SC : HScalar T) (St : Type) kern eager m (acts : list (action T St)) ts es rs,
  Forall no_pointers acts -> trun kern eager m tinitial acts = Some (Ok (ts, es, rs)) ->
  (forall x v, nth_error (st_mats (b_state (t_state ts))) x = Some v -> reaches_as v (leaves_of (t_held ts) x)) /\
  (forall x y b c l k, x <> y -> nth_error (st_mats (b_state (t_state ts))) x = Some (MBase b) ->
     nth_error (st_mats (b_state (t_state ts))) y = Some (MBase c) -> In l (leaves_of (t_held ts) x) -> In k (leaves_of (t_held ts) y) ->
     l_tag l <> l_tag k).
Proof. exact @held_shown. Qed.
Print Assumptions C71_held.

(** A call accesses the containers of its operands, the exclusive ones by writing if it can; a cell whose
    content changes has been written to. *)
Theorem C71_accesses : forall (T : Type) (SC : HScalar T) (St : Type) kern eager m (acts : list (action T St)) ts es rs
    (o : call T St) ts' es' r,
  Forall no_pointers acts -> trun kern eager m tinitial acts = Some (Ok (ts, es, rs)) ->
  tstep kern eager m ts (Do o) = Some (Ok (ts', es', r)) ->
  (forall x a v q, r <> RSkipped -> reaches_data o = true -> In (x, a) (uses o) ->
     nth_error (st_mats (b_state (t_state ts))) x = Some v -> occupies v q ->
     exists w, accessed es' w q /\ (a = Exclusive -> w = is_writable v) /\ (a = Shared -> w = false)) /\
  (forall a i, (a < length (st_heap (b_state (t_state ts))))%nat ->
     hget (st_heap (b_state (t_state ts'))) a i <> hget (st_heap (b_state (t_state ts))) a i -> accessed es' true (a, i)).
Proof. exact @events_shown. Qed.
Print Assumptions C71_accesses.

(** A call reads no cell that it does not access: with any other contents of the remaining cells it has the same
    result, the same matrices, and the same contents of the cells it accesses and of those it allocates. *)
Theorem C71_reads : forall (T : Type) (SC : HScalar T) (St : Type) kern eager m (acts : list (action T St)) ts es rs
    (o : call T St) ts' es' r,
  Forall no_pointers acts -> trun kern eager m tinitial acts = Some (Ok (ts, es, rs)) ->
  tstep kern eager m ts (Do o) = Some (Ok (ts', es', r)) ->
  forall h, length h = length (st_heap (b_state (t_state ts))) ->
  (forall w a i, accessed es' w (a, i) -> hget h a i = hget (st_heap (b_state (t_state ts))) a i) ->
  exists st, step kern m (mkState h (st_mats (b_state (t_state ts)))) o = Ok (st, r) /\
    st_mats st = st_mats (b_state (t_state ts')) /\
    forall v a i, In v (st_mats (b_state (t_state ts'))) -> occupies v (a, i) ->
      (exists w, accessed es' w (a, i)) \/ (length (st_heap (b_state (t_state ts))) <= a)%nat ->
      hget (st_heap st) a i = hget (st_heap (b_state (t_state ts'))) a i.
Proof. exact @reads_shown. Qed.
Print Assumptions C71_reads.

(** A new matrix with a container of its own has made the tag it is reached with: by an allocation, or as a slice
    that is exclusive if the matrix is writable. *)
Theorem C71_makes : forall (T : Type) (SC : HScalar T) (St : Type) kern eager m (acts : list (action T St)) ts es rs
    (a : action T St) ts' es' r,
  Forall no_pointers acts -> no_pointers a -> trun kern eager m tinitial acts = Some (Ok (ts, es, rs)) ->
  tstep kern eager m ts a = Some (Ok (ts', es', r)) ->
  forall x b l, (length (st_mats (b_state (t_state ts))) <= x)%nat -> nth_error (st_mats (b_state (t_state ts'))) x = Some (MBase b) ->
    In l (leaves_of (t_held ts') x) -> makes es' (l_tag l) (l_region l) (l_write l) (l_owned l).
Proof. exact @made_shown. Qed.
Print Assumptions C71_makes.

(** The end of a matrix frees each allocation it owns, as often as it owns it; a call that returns frees nothing. *)
Theorem C71_frees : forall (T : Type) (SC : HScalar T) (St : Type) kern eager m (acts : list (action T St)) ts es rs
    (a : action T St) ts' es' r,
  Forall no_pointers acts -> trun kern eager m tinitial acts = Some (Ok (ts, es, rs)) ->
  tstep kern eager m ts a = Some (Ok (ts', es', r)) ->
  match a with
  | Drop x => forall v, nth_error (st_mats (b_state (t_state ts))) x = Some v -> forall i, frees i es' = owners i v
  | Do _ => r <> RPanicked -> forall i, frees i es' = 0%nat
  end.
Proof. exact @frees_shown. Qed.
Print Assumptions C71_frees.

(** A split keeps its parts apart exactly in matrices of two rows. *)
Theorem C71_two_rows : forall (T St : Type) m (st : state T) x b D at_,
  lookup_mut st x = Some b -> base_valid (st_heap st) b -> bm_layout b = RowMajor D -> interior D at_ ->
  (apart_split m st (Do (@CSplit T St x at_)) <-> fst at_ = 1 /\ fst D = 2).
Proof. exact @two_rows. Qed.
Print Assumptions C71_two_rows.

(** What breaks the rules after a split: the first use of the part [k], if a later
    part has cells in common with the memory range of [k]. *)
Theorem C71_split_exact : forall (T : Type) (SC : HScalar T) (St : Type) kern eager m (acts : list (action T St)) ts es rs
    x at_ ts1 es1 k (o : call T St) a ts2 es2 r v,
  Forall no_pointers acts -> apart_splits kern m binitial acts -> trun kern eager m tinitial acts = Some (Ok (ts, es, rs)) ->
  tstep kern eager m ts (Do (@CSplit T St x at_)) = Some (Ok (ts1, es1, RNew)) ->
  uses o = [((length (st_mats (b_state (t_state ts))) + k)%nat, a)] -> a <> Moved -> reaches_data o = true ->
  tstep kern eager m ts1 (Do o) = Some (Ok (ts2, es2, r)) -> r <> RNew -> r <> RSkipped ->
  nth_error (st_mats (b_state (t_state ts1))) (length (st_mats (b_state (t_state ts))) + k) = Some v ->
  (respects (es ++ es1 ++ es2) <->
   forall j w, (k < j)%nat ->
     nth_error (st_mats (b_state (t_state ts1))) (length (st_mats (b_state (t_state ts))) + j) = Some w -> ~ overlap v w).
Proof.
  intros T SC St kern eager m acts ts es rs x at_ ts1 es1 k o a ts2 es2 r v Np Ap H.
  apply split_use. exact (ghost_run _ _ _ _ _ _ _ _ _ ghost_initial Np Ap H).
Qed.
Print Assumptions C71_split_exact.

(** For splits inside of row-major matrices: a read of one entry of the upper left
    part is undefined behaviour if the part has two rows, one of the lower left part if
    that has two rows; the right parts can be used. *)
Theorem C71_rows_exact : forall (T : Type) (SC : HScalar T) (St : Type) kern eager m (acts : list (action T St)) ts es rs
    x at_ b D ts1 es1 k (o : call T St) a ts2 es2 r,
  Forall no_pointers acts -> apart_splits kern m binitial acts -> trun kern eager m tinitial acts = Some (Ok (ts, es, rs)) ->
  lookup_mut (b_state (t_state ts)) x = Some b -> base_valid (st_heap (b_state (t_state ts))) b ->
  bm_layout b = RowMajor D -> interior D at_ ->
  tstep kern eager m ts (Do (@CSplit T St x at_)) = Some (Ok (ts1, es1, RNew)) ->
  (k < 4)%nat -> uses o = [((length (st_mats (b_state (t_state ts))) + k)%nat, a)] -> a <> Moved -> reaches_data o = true ->
  tstep kern eager m ts1 (Do o) = Some (Ok (ts2, es2, r)) -> r <> RNew -> r <> RSkipped ->
  (respects (es ++ es1 ++ es2) <-> ~ (k = 0%nat /\ 2 <= fst at_) /\ ~ (k = 2%nat /\ fst at_ + 2 <= fst D)).
Proof. exact @split_breaks. Qed.
Print Assumptions C71_rows_exact.

(** In these cases the two forms of the rules agree. *)
Theorem C71_rules_split : forall (T : Type) (SC : HScalar T) (St : Type) kern eager m (acts : list (action T St)) ts es rs
    x at_ ts1 es1 k (o : call T St) a ts2 es2 r v,
  Forall no_pointers acts -> apart_splits kern m binitial acts -> trun kern eager m tinitial acts = Some (Ok (ts, es, rs)) ->
  tstep kern eager m ts (Do (@CSplit T St x at_)) = Some (Ok (ts1, es1, RNew)) ->
  uses o = [((length (st_mats (b_state (t_state ts))) + k)%nat, a)] -> a <> Moved -> reaches_data o = true ->
  tstep kern eager m ts1 (Do o) = Some (Ok (ts2, es2, r)) -> r <> RNew -> r <> RSkipped ->
  nth_error (st_mats (b_state (t_state ts1))) (length (st_mats (b_state (t_state ts))) + k) = Some v ->
  (sb_respects (es ++ es1 ++ es2) <-> respects (es ++ es1 ++ es2)).
Proof. exact @split_use_sb. Qed.
Print Assumptions C71_rules_split.

(** ** Examples and counterexamples *)

Definition tevents {T St : Type} (o : option (outcome (tstate T * list event * list (result T St)))) : option (list event) :=
  match o with Some (Ok (_, es, _)) => Some es | _ => None end.

(** Three safe calls: a matrix of four rows, its split, and a read of one entry. *)
Definition ex_split_read : list (action Z nat) := [Do (CZeros KRowMajor 4 4); Do (CSplit 0 (2, 2)); Do (CGet 1 0 0)].

Theorem C71_split_refuted : exists (acts : list (action Z nat)) ts es rs,
  (forall o, In (Do o) acts -> safe_call o) /\
  trun ex_kernel false Checked tinitial acts = Some (Ok (ts, es, rs)) /\ ~ sb_respects es.
Proof.
  exists ex_split_read. do 3 eexists. split.
  { intros o H. cbn [ex_split_read In] in H. repeat (destruct H as [H|H]; [injection H as <-; exact I|]). destruct H. }
  split; [timeout 300 (vm_compute; reflexivity)|]. intros H. apply (H (0%nat, 2)). timeout 300 (vm_compute; reflexivity).
Qed.
Print Assumptions C71_split_refuted.

(** Calls that do not reach the data are allowed: the sizes of the parts, and sums of them. *)
Example C71_split_sizes : option_map (fun es => forallb (fun c => match sb_events c [] es with Some _ => true | None => false end) (map (fun k => (0%nat, N.of_nat k)) (seq 0 16)))
  (tevents (trun ex_kernel false Checked tinitial
     [Do (CZeros KRowMajor 4 4); Do (CSplit 0 (2, 2)); Do (CDim 1); Do (CDim 3); Do (@CLength Z nat 2); Do (CPlus ByReference ByReference 1 2); Do (CDim 5)])) = Some true.
Proof. timeout 300 (vm_compute; reflexivity). Qed.

(** A matrix from a raw pointer ends nothing that Rust knows of: the hypothesis on pointers is needed, too. *)
Theorem C71_pointer_needed : exists (acts : list (action Z nat)) ts es rs,
  Forall no_split acts /\ trun ex_kernel false Checked tinitial acts = Some (Ok (ts, es, rs)) /\ ~ sb_respects es.
Proof.
  exists [Do (CZeros KRowMajor 2 2); Do (CFromPointer true ByRow 0 0 (2, 2)); Do (CSet 0 0 0 5%Z); Do (CGet 1 0 0)].
  do 3 eexists. split; [repeat constructor|].
  split; [timeout 300 (vm_compute; reflexivity)|]. intros H. apply (H (0%nat, 0)). timeout 300 (vm_compute; reflexivity).
Qed.
Print Assumptions C71_pointer_needed.

(** A history that meets the hypotheses: a matrix of two rows, its four parts in use
    in any order, a block of a part, sums, products, moves and drops. *)
Definition ex_aliases : list (action Z nat) :=
  [Do (CZeros KRowMajor 2 4); Do (CSplit 0 (1, 2)); Do (CSet 1 0 0 1%Z); Do (CSet 4 0 1 2%Z); Do (CSet 2 0 0 3%Z);
   Do (CBlock true 3 (0, 0) (1, 1)); Do (CSet 5 0 0 4%Z); Do (CGet 3 0 0);
   Do (CPlus ByReference ByReference 1 2); Do (CEval 6); Do (CZeros KRowMajor 2 2); Do (CDot MatrixMatrix 7 8);
   Do (CScalarTimes 2%Z ByValue 8); Do (CEval 10); Do (CSet 0 0 0 9%Z); Do (CGet 0 0 0); Drop 10; Drop 7; Drop 0].

Definition tresults {T St : Type} (o : option (outcome (tstate T * list event * list (result T St)))) : option (list (result T St)) :=
  match o with Some (Ok (_, _, rs)) => Some rs | _ => None end.

Ltac next := cbn [apart_splits]; split; [exact I|]; intros bs r H; vm_compute in H; injection H as <- <-.

Example C71_example : Forall no_pointers ex_aliases /\ apart_splits ex_kernel Checked binitial ex_aliases /\
  tresults (trun ex_kernel true Checked tinitial ex_aliases) =
    Some [RNew; RNew; RDone; RDone; RDone; RNew; RDone; RItem 4%Z; RNew; RNew; RNew; RNew; RNew; RNew; RDone; RItem 9%Z; RDone; RDone; RDone] /\
  option_map (@length event) (tevents (trun ex_kernel true Checked tinitial ex_aliases)) = Some 36%nat.
Proof.
  split; [repeat constructor|]. split.
  - unfold ex_aliases. next. cbn [apart_splits]. split.
    + apply two_rows with (D := (2, 4)) (b := mkBase (mkContainer VectorContainer (mkRegion 0 0 8)) (RowMajor (2, 4)) Dynamic Dynamic).
      * reflexivity.
      * apply dense_base_valid with (l := RowMajor (2, 4)); try reflexivity; try discriminate.
        split; [|discriminate]. exists (repeat 0%Z 8). split; [reflexivity|discriminate].
      * reflexivity.
      * repeat split; discriminate.
      * split; reflexivity.
    + intros bs r H. vm_compute in H. injection H as <- <-. repeat next. exact I.
  - split; timeout 300 (vm_compute; reflexivity).
Qed.

(** The hypotheses of [C71_rows_exact]: a read of the upper left part of a matrix of
    four rows, and one of the upper right part. *)
Definition tends {T St : Type} (o : option (outcome (tstate T * list event * list (result T St)))) : tstate T :=
  match o with Some (Ok (ts, _, _)) => ts | _ => tinitial end.
Example C71_rows_example : forall k, (k < 2)%nat ->
  exists ts es rs b ts1 es1 ts2 es2 r,
    trun ex_kernel false Checked tinitial [Do (@CZeros Z nat KRowMajor 4 4)] = Some (Ok (ts, es, rs)) /\
    lookup_mut (b_state (t_state ts)) 0 = Some b /\ base_valid (st_heap (b_state (t_state ts))) b /\
    bm_layout b = RowMajor (4, 4) /\ interior (4, 4) (2, 2) /\
    tstep ex_kernel false Checked ts (Do (@CSplit Z nat 0 (2, 2))) = Some (Ok (ts1, es1, RNew)) /\
    uses (@CGet Z nat (1 + k) 0 0) = [((length (st_mats (b_state (t_state ts))) + k)%nat, Shared)] /\
    tstep ex_kernel false Checked ts1 (Do (@CGet Z nat (1 + k) 0 0)) = Some (Ok (ts2, es2, r)) /\ r <> RNew /\ r <> RSkipped.
Proof.
  intros k Hk. assert (E : k = 0%nat \/ k = 1%nat) by lia. clear Hk.
  destruct E as [-> | ->]; exists (tends (trun ex_kernel false Checked tinitial [Do (@CZeros Z nat KRowMajor 4 4)]));
  (do 2 eexists; exists (mkBase (mkContainer VectorContainer (mkRegion 0 0 16)) (RowMajor (4, 4)) Dynamic Dynamic); do 5 eexists;
   split; [vm_compute; reflexivity|]; split; [reflexivity|]; split;
   [apply dense_base_valid with (l := RowMajor (4, 4)); try reflexivity; try discriminate;
    split; [exists (repeat 0%Z 16); split; [reflexivity|discriminate]|discriminate]|];
   split; [reflexivity|]; split; [repeat split; discriminate|]; split; [vm_compute; reflexivity|]; split; [reflexivity|];
   split; [vm_compute; reflexivity|split; discriminate]).
Qed.

(** The events of a short history, one after the other. *)
Example C71_events_example :
  tevents (trun ex_kernel false Checked tinitial
    [Do (@CZeros Z nat KRowMajor 2 2); Do (CBlock true 0 (0, 0) (1, 2)); Do (CSet 1 0 1 7%Z); Do (CGet 0 0 1); Drop 0]) =
  Some [Allocate 0%nat (mkRegion 0 0 4);
        Access true 0%nat (mkRegion 0 0 4); Reborrow 0%nat 1%nat SharedReadWrite (mkRegion 0 0 4); Reborrow 1%nat 2%nat Unique (mkRegion 0 0 2);
        Access true 2%nat (mkRegion 0 0 2); Access false 0%nat (mkRegion 0 0 4); Free 0%nat (mkRegion 0 0 4)].
Proof. timeout 300 (vm_compute; reflexivity). Qed.

(** [get] on the first of two matrices: its events reach the first allocation only, and another content of the
    second makes no difference. *)
Example C71_reads_example :
  let ts := tends (trun ex_kernel false Checked tinitial [Do (@CZeros Z nat KRowMajor 2 2); Do (@CZeros Z nat KColumnMajor 2 2)]) in
  let h := [[0; 0; 0; 0]; [5; 6; 7; 8]]%Z in
  option_map (fun x => match x with Ok (_, es, r) => Some (es, r) | _ => None end) (tstep ex_kernel false Checked ts (Do (@CGet Z nat 0 1 1))) =
    Some (Some ([Access false 0%nat (mkRegion 0 0 4)], RItem 0%Z)) /\
  length h = length (st_heap (b_state (t_state ts))) /\ h <> st_heap (b_state (t_state ts)) /\
  (forall w a i, accessed [Access false 0%nat (mkRegion 0 0 4)] w (a, i) -> hget h a i = hget (st_heap (b_state (t_state ts))) a i) /\
  step ex_kernel Checked (mkState h (st_mats (b_state (t_state ts)))) (@CGet Z nat 0 1 1) = Ok (mkState h (st_mats (b_state (t_state ts))), RItem 0%Z).
Proof.
  split; [timeout 300 (vm_compute; reflexivity)|]. split; [reflexivity|]. split; [discriminate|]. split; [|timeout 300 (vm_compute; reflexivity)].
  intros w a i (t & r & Hin & Hc). cbn [In] in Hin. destruct Hin as [E|[]]. injection E as _ _ <-.
  unfold covers in Hc. destruct a as [|a]; [reflexivity|discriminate].
Qed.

(** The rules of the paper are those of references: after an access with the pointer it was made from, an exclusive reference
    cannot be used any more, and a shared one cannot after a write. Events in between make no difference. *)
Theorem C71_exclusive : forall q parent new p r w r1 w2 r2 before between after,
  covers r q = true -> covers r1 q = true -> covers r2 q = true ->
  p = Unique \/ p = SharedReadOnly /\ w = true ->
  NoDup (tags_made (before ++ [Reborrow parent new p r] ++ between ++ [Access w parent r1] ++ after)) ->
  sb_events q [] (before ++ [Reborrow parent new p r] ++ between ++ [Access w parent r1] ++ after ++ [Access w2 new r2]) = None.
Proof. exact paper_exclusive. Qed.
Print Assumptions C71_exclusive.

(** A shared reference is never written with. *)
Theorem C71_read_only : forall q parent new r r1 before after,
  covers r q = true -> covers r1 q = true ->
  NoDup (tags_made (before ++ [Reborrow parent new SharedReadOnly r] ++ after)) ->
  sb_events q [] (before ++ [Reborrow parent new SharedReadOnly r] ++ after ++ [Access true new r1]) = None.
Proof. exact paper_read_only. Qed.
Print Assumptions C71_read_only.

(** An exclusive reference and a shared one in the memory of an owner; a read with the owner ends the first and not the second. *)
Example C71_exclusive_example :
  let r := mkRegion 0 0 2 in
  let es p := [Allocate 0%nat r] ++ [Reborrow 0%nat 1%nat p (mkRegion 0 1 1)] ++ [Access false 1%nat (mkRegion 0 1 1)] ++ [Access false 0%nat r] in
  (forall p, NoDup (tags_made (es p))) /\
  (forall p, sb_events (0%nat, 1) [] (es p) <> None) /\
  sb_events (0%nat, 1) [] (es Unique ++ [Access false 1%nat r]) = None /\
  sb_events (0%nat, 1) [] (es Unique ++ [Access true 1%nat r]) = None /\
  sb_events (0%nat, 1) [] (es SharedReadOnly ++ [Access false 1%nat r]) <> None /\
  sb_events (0%nat, 1) [] (es SharedReadOnly ++ [Access true 1%nat r]) = None.
Proof.
  split; [intros p; repeat constructor; cbn; intuition discriminate|].
  split; [intros []; timeout 300 (vm_compute; discriminate)|]. timeout 300 (vm_compute; repeat split; discriminate).
Qed.

(** Two raw pointers in turn: the strict rules forbid it, those of the paper do not. A write
    with the owner ends both. *)
Example C71_rules_example :
  let r := mkRegion 0 0 1 in
  let es := [Allocate 0%nat r; Reborrow 0%nat 1%nat SharedReadWrite r; Reborrow 1%nat 2%nat SharedReadWrite r; Access true 1%nat r; Access true 2%nat r] in
  cell_events (0%nat, 0) [] es = None /\
  sb_events (0%nat, 0) [] es = Some [(2%nat, Some SharedReadWrite); (1%nat, Some SharedReadWrite); (0%nat, Some Unique)] /\
  sb_events (0%nat, 0) [] (es ++ [Access true 0%nat r; Access false 2%nat r]) = None.
Proof. timeout 300 (vm_compute; auto). Qed.
