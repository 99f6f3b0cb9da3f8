(** * Properties_Admit: the ownership rules ask no more of a program than they must.

    C59. The property is about the signatures of the crate, that is about [uses] and
    [returned] of Borrow.v: what is taken by [&], by [&mut] or by value, and what the
    returned matrices borrow. *)

From Coq Require Import Lia.
From Verif Require Import Machine Layouts Memory Matrix MatMul Spec MatrixSpec ExprSpec ProductSpec.
From Verif Require Import Program HistorySpec Borrow BorrowFacts AdmitSpec AdmitProofs.
From Verif Require Import ZScalar Properties_Products Properties_Borrow.
Local Open Scope N_scope.

(** ** C59: exactly the conflicting calls are refused *)

(** After any history: a call is admitted exactly if its operands exist, have not ended, and
    do not conflict with each other; a drop exactly if the matrix has not ended. *)
Theorem C59_admitted : forall (T : Type) (SC : HScalar T) (St : Type) kern m (acts : list (action T St)) bs rs,
  brun kern m binitial acts = Some (Ok (bs, rs)) ->
  (forall o : call T St, (exists x, bstep kern m bs (Do o) = Some x) <-> admissible (b_slots bs) (uses o)) /\
  (forall x, (exists y, bstep (St := St) kern m bs (Drop x) = Some y) <-> is_live (b_slots bs) x = true).
Proof. exact @c59_admitted. Qed.
Print Assumptions C59_admitted.

(** A call with one operand is admitted exactly if the operand has not ended. *)
Theorem C59_single : forall (T : Type) (SC : HScalar T) (St : Type) kern m (acts : list (action T St)) bs rs,
  brun kern m binitial acts = Some (Ok (bs, rs)) ->
  forall (o : call T St) x a, uses o = [(x, a)] ->
  ((exists y, bstep kern m bs (Do o) = Some y) <-> is_live (b_slots bs) x = true).
Proof. exact @c59_single. Qed.
Print Assumptions C59_single.

(** After a call exactly these matrices can be used: the returned ones, and the old ones that
    could be used before, were not moved, and are not ended by the use of an operand. *)
Theorem C59_after : forall (T : Type) (SC : HScalar T) (St : Type) kern m (acts : list (action T St)) bs rs,
  brun kern m binitial acts = Some (Ok (bs, rs)) ->
  forall (o : call T St) bs' r, bstep kern m bs (Do o) = Some (Ok (bs', r)) ->
  (length (b_slots bs) <= length (b_slots bs'))%nat /\
  forall y, (y < length (b_slots bs'))%nat ->
    (is_live (b_slots bs') y = true <->
     (length (b_slots bs) <= y)%nat \/
     is_live (b_slots bs) y = true /\ ~ In (y, Moved) (uses o) /\ forall u, In u (uses o) -> ~ ended_by (b_slots bs) u y).
Proof. exact @c59_after. Qed.
Print Assumptions C59_after.

(** A program that only creates and reads, with any number of views, expressions and repeated
    operands, is never refused anything and loses no matrix. *)
Theorem C59_readers : forall (T : Type) (SC : HScalar T) (St : Type) kern m (acts : list (action T St)) bs rs,
  Forall (fun a => match a with Do o => reads_only o | Drop _ => False end) acts ->
  brun kern m binitial acts = Some (Ok (bs, rs)) ->
  (forall y, (y < length (b_slots bs))%nat -> is_live (b_slots bs) y = true) /\
  forall o : call T St, reads_only o -> (forall x a, In (x, a) (uses o) -> (x < length (b_slots bs))%nat) ->
    exists x, bstep kern m bs (Do o) = Some x.
Proof. exact @c59_readers. Qed.
Print Assumptions C59_readers.

(** Two views of one matrix and a sum of the matrix with itself are all in use at once, and the
    matrix is squared ... *)
Definition ex_reading : list (action Z nat) :=
  [ Do (CZeros KRowMajor 2 2); Do (CBlock false 0 (0, 0) (2, 2)); Do (CBlock false 0 (1, 0) (1, 2));
    Do (CPlus ByReference ByReference 0 0); Do (CScalarTimes 3%Z ByReference 3); Do (CDot MatrixMatrix 0 0);
    Do (CGet 1 0 0); Do (CGet 4 1 1); Do (CGet 0 0 0) ].
Example C59_readers_example :
  Forall (fun a => match a with Do o => reads_only o | Drop _ => False end) ex_reading /\
  breturns (brun ex_kernel Checked binitial ex_reading) =
    Some [RNew; RNew; RNew; RNew; RNew; RNew; RItem 0%Z; RItem 0%Z; RItem 0%Z].
Proof. split; [repeat constructor|timeout 300 (vm_compute; reflexivity)]. Qed.

(** ... until one of them writes: writing to the matrix ends its views, but not the product,
    which has its own storage; dropping a view ends nothing else. *)
Definition ex_reading_state : bstate Z := Eval vm_compute in ends (brun ex_kernel Checked binitial ex_reading).
Definition admits (acts : list (action Z nat)) : bool :=
  match brun ex_kernel Checked ex_reading_state acts with Some _ => true | None => false end.
Example C59_after_example :
  map (fun x => is_live (b_slots (ends (brun ex_kernel Checked ex_reading_state [Do (CSet (St := nat) 0 0 0 7%Z)]))) x)
      [0; 1; 2; 3; 4; 5]%nat = [true; false; false; false; false; true] /\
  map (fun x => is_live (b_slots (ends (brun (St := nat) ex_kernel Checked ex_reading_state [Drop 1%nat]))) x)
      [0; 1; 2; 3; 4; 5]%nat = [true; false; true; true; true; true] /\
  map (fun x => is_live (b_slots (ends (brun ex_kernel Checked ex_reading_state [Do (CPlus (St := nat) ByReference ByValue 0 3)]))) x)
      [0; 1; 2; 3; 4; 5; 6]%nat = [true; true; true; false; false; true; true].
Proof. repeat split; timeout 300 (vm_compute; reflexivity). Qed.

(** Both answers of the rules occur. *)
Example C59_admitted_example :
  admits [Do (CMatmul 1%Z 0 0 0%Z 5)] = true /\ admits [Do (CMatmul 1%Z 1 2 0%Z 5)] = true /\
  admits [Do (CMatmul 1%Z 0 5 0%Z 5)] = false /\ admits [Do (CMatmul 1%Z 1 1 0%Z 0)] = false /\
  admits [Do (CPlus ByValue ByReference 3 3)] = false /\ admits [Do (CPlus ByValue ByReference 3 4)] = false /\
  admits [Do (CPlus ByValue ByReference 4 3)] = true /\
  admits [Do (CSet 0 0 0 7%Z); Do (CGet 1 0 0)] = false /\ admits [Do (CGet 9 0 0)] = false.
Proof. repeat split; timeout 300 (vm_compute; reflexivity). Qed.
