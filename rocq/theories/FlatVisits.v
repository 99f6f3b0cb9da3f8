(** * FlatVisits: the list of loads and stores is complete. *)

From Coq Require Import Lia ZifyBool ZifyNat ZifyN.
From Verif Require Import Machine MachineFacts Layouts Memory Matrix MatMul Spec MatrixSpec ExprSpec ProductSpec.
From Verif Require Import LayoutFacts Program HistorySpec Borrow Dealloc Threads Interleave Flat FlatProofs.
Local Open Scope N_scope.

Section Visits.
Context {T : Type} {SC : HScalar T} {St B : Type}.
Variable encode : T -> list B.
Variable decode : list B -> T.
Hypothesis coding : faithful encode decode.
Variable code : gemm_args T -> prog T unit.
Variable choose : nat -> nat.

Notation perform := (perform encode decode choose).
Notation visits := (visits encode decode choose).
Notation pstep := (process_step encode decode code choose).
Notation prun := (process_run encode decode code choose).
Notation pvisits := (process_visits encode decode code choose).

Definition like (Y Y' : bytes B) (keep : N -> Prop) : Prop :=
  y_blocks Y' = y_blocks Y /\ y_log Y' = y_log Y /\ forall x, keep x -> y_mem Y' x = y_mem Y x.

Lemma store_same : forall (M M' : N -> B) a v x, M' x = M x -> store encode M' a v x = store encode M a v x.
Proof. intros M M' a v x E. unfold store. destruct (a <=? x); auto. destruct (nth_error _ _); auto. Qed.
Lemma store_all_same : forall l (M M' : N -> B) a x, M' x = M x -> store_all encode M' a l x = store_all encode M a l x.
Proof. induction l as [|v l IH]; intros M M' a x E; cbn [store_all]; auto. apply IH, store_same, E. Qed.

Lemma perform_like : forall A (c : prog T A) Y Y' keep, like Y Y' keep -> (forall x, touched (visits c Y) x -> keep x) ->
  match perform c Y, perform c Y' with
  | None, None => True
  | Some (o, Y1), Some (o', Y1') => o = o' /\ like Y1 Y1' keep
  | _, _ => False
  end.
Proof.
  intros A c. induction c as [o|p k IH|p v k IH|l k IH]; intros Y Y' keep (EB & EL & EM) HV; cbn [Flat.perform Flat.visits] in *.
  - split; auto. split; auto.
  - assert (EQ : load decode (y_mem Y') (address p) = load decode (y_mem Y) (address p)).
    { apply (load_ext decode choose). intros x Hx. apply EM, HV. exists (address p), (y_blocks Y). split; [now left|exact Hx]. }
    rewrite EQ. apply IH; [split; auto|]. intros x (a & bs & I & X). apply HV. exists a, bs. split; auto. now right.
  - apply IH.
    + split; [exact EB|]. split; [exact EL|]. intros x Kx. cbn [y_mem]. apply store_same. auto.
    + intros x (a & bs & I & X). apply HV. exists a, bs. split; auto. now right.
  - assert (EC : y_count Y' = y_count Y) by (unfold y_count; now rewrite EL). rewrite EC.
    assert (EG : forall b, grants Y' b = grants Y b) by (intros b; unfold grants; now rewrite EB). rewrite EG.
    destruct (grants Y _) eqn:G; auto. apply IH; auto. split; [|split].
    + unfold take. cbn [y_blocks]. now rewrite EB.
    + unfold take. cbn [y_log]. now rewrite EL.
    + intros x Kx. unfold take. cbn [y_mem]. apply store_all_same. auto.
Qed.

Lemma perform_logs : forall A (c : prog T A) Y o Y', perform c Y = Some (o, Y') -> exists new, y_log Y' = new ++ y_log Y.
Proof.
  intros A c. induction c as [o|p k IH|p v k IH|l k IH]; intros Y o' Y' E; cbn [Flat.perform] in E.
  - injection E as _ <-. now exists [].
  - eauto.
  - apply IH in E. exact E.
  - destruct (grants Y _); [|discriminate]. apply IH in E. destruct E as (new & E). unfold take in E. cbn [y_log] in E.
    exists (new ++ [(choose (y_count Y), N.of_nat (length l))]). now rewrite <- app_assoc.
Qed.

Lemma perform_changes : forall A (c : prog T A) Y o Y', perform c Y = Some (o, Y') ->
  forall x, ~ touched (visits c Y) x -> ~ handed_out Y Y' x -> y_mem Y' x = y_mem Y x.
Proof.
  intros A c. induction c as [o|p k IH|p v k IH|l k IH]; intros Y o' Y' E x NV NH; cbn [Flat.perform Flat.visits] in *.
  - injection E as _ <-. reflexivity.
  - apply (IH _ _ _ _ E); auto. intros (a & bs & I & X). apply NV. exists a, bs. split; auto. now right.
  - rewrite (IH _ _ _ E); auto.
    + cbn [y_mem]. apply (store_out encode decode coding). intros X. apply NV. exists (address p), (y_blocks Y). split; auto. now left.
    + intros (a & bs & I & X). apply NV. exists a, bs. split; auto. now right.
  - destruct (grants Y _) eqn:G; [|discriminate]. destruct (perform_logs _ _ _ _ _ E) as (new & L). unfold take in L. cbn [y_log] in L.
    rewrite (IH _ _ _ _ E); auto.
    + unfold take. cbn [y_mem fst]. apply (store_all_out encode decode coding). intros X. apply NH.
      exists (new ++ [(choose (y_count Y), N.of_nat (length l))]), (choose (y_count Y), N.of_nat (length l)). rewrite <- app_assoc.
      split; [exact L|]. split; [|exact X]. apply in_or_app. right. now left.
    + intros (new1 & b & L1 & I & X). apply NH. unfold take in L1. cbn [y_log] in L1.
      exists (new1 ++ [(choose (y_count Y), N.of_nat (length l))]), b. rewrite <- app_assoc. split; [exact L1|]. split; auto. apply in_or_app. now left.
Qed.

(** ** Histories *)

Definition plike (P P' : process T B) (keep : N -> Prop) : Prop :=
  pr_table P' = pr_table P /\ pr_slots P' = pr_slots P /\ pr_gone P' = pr_gone P /\ like (pr_bytes P) (pr_bytes P') keep.
Definition elike (R : Type) (e e' : effect (process T B * R)) (keep : N -> Prop) : Prop :=
  match e, e' with
  | Goes (P, rs), Goes (P', rs') => rs = rs' /\ plike P P' keep
  | Rejected, Rejected | NoMemory, NoMemory | Undefined, Undefined => True
  | _, _ => False
  end.

Lemma back_like : forall l Y Y' keep, like Y Y' keep ->
  match give_back_all Y l, give_back_all Y' l with
  | Ok Y1, Ok Y1' => like Y1 Y1' keep
  | Panic, Panic | UB, UB => True
  | _, _ => False
  end.
Proof.
  intros l. induction l as [|b l IH]; intros Y Y' keep L; cbn [give_back_all]; auto.
  unfold give_back. destruct (snd b =? 0); cbn [bind]; [now apply IH|]. destruct L as (EB & EL & EM). rewrite EB.
  destruct (remove_block b (y_blocks Y)); cbn [bind]; auto. apply IH. split; auto.
Qed.
Lemma destroy_like : forall P P' keep x, plike P P' keep ->
  match destroy_one P x, destroy_one P' x with
  | Ok P1, Ok P1' => plike P1 P1' keep
  | Panic, Panic | UB, UB => True
  | _, _ => False
  end.
Proof.
  intros P P' keep x (ET & ES & EG & L). unfold destroy_one. rewrite ET. destruct (nth_error (pr_table P) x) as [v|]; [|split; auto].
  pose proof (back_like (owned_blocks v) _ _ _ L) as X.
  destruct (give_back_all (pr_bytes P) (owned_blocks v)), (give_back_all (pr_bytes P') (owned_blocks v)); cbn [bind]; auto.
  split; [reflexivity|]. split; [exact ES|]. split; [|exact X]. cbn [pr_gone]. now rewrite EG.
Qed.
Lemma each_like : forall xs P P' keep, plike P P' keep ->
  match destroy_each P xs, destroy_each P' xs with
  | Ok P1, Ok P1' => plike P1 P1' keep
  | Panic, Panic | UB, UB => True
  | _, _ => False
  end.
Proof.
  intros xs. induction xs as [|x xs IH]; intros P P' keep L; cbn [destroy_each]; auto.
  pose proof (destroy_like P P' keep x L) as X. destruct (destroy_one P x), (destroy_one P' x); cbn [bind]; try contradiction; [now apply IH|exact I|exact I].
Qed.
Lemma pass_like : forall xs (r : result T St) P P' keep, plike P P' keep -> elike _ (pass_on P xs r) (pass_on P' xs r) keep.
Proof.
  intros xs r P P' keep L.
  assert (D : elike (list (result T St)) (match destroy_each P xs with Ok P' => Goes (P', [r]) | _ => Undefined end)
    (match destroy_each P' xs with Ok P' => Goes (P', [r]) | _ => Undefined end) keep).
  { pose proof (each_like xs P P' keep L) as X. destruct (destroy_each P xs), (destroy_each P' xs); cbn [elike]; auto. }
  destruct r; auto. destruct L as (ET & ES & EG & L). cbn [pass_on elike]. split; auto. split; [exact ET|]. split; [exact ES|]. split; [|exact L].
  cbn [pr_gone]. now rewrite EG.
Qed.

Lemma step_like : forall m P P' (a : faction T St) keep, plike P P' keep ->
  (forall x, touched (step_visits encode decode code choose m P a) x -> keep x) -> elike _ (pstep m P a) (pstep m P' a) keep.
Proof.
  intros m P P' a keep L HV. pose proof L as (ET & ES & EG & LB). destruct a as [[o|x]|x]; cbn [process_step step_visits] in *.
  - rewrite ES. destruct (admit_uses (pr_slots P) (uses o)) as [bt|]; [|exact I]. unfold call_process. rewrite ET.
    destruct (program code m (pr_table P) o) as [c|].
    + pose proof (perform_like _ c _ _ keep LB HV) as X.
      destruct (perform c (pr_bytes P)) as [[o1 Y1]|], (perform c (pr_bytes P')) as [[o2 Y2]|]; try contradiction; [|exact I].
      destruct X as [<- (X1 & X2 & X3)].
      destruct o1 as [[new r]| |]; [| |exact I].
      * rewrite ES, EG. apply pass_like. split; [reflexivity|]. split; [reflexivity|]. split; [reflexivity|]. split; auto.
      * rewrite EG. apply pass_like. split; [reflexivity|]. split; [reflexivity|]. split; [reflexivity|].
        split; [|split; auto]. cbn [y_blocks]. apply LB.
    + rewrite EG. apply pass_like. split; [reflexivity|]. split; [reflexivity|]. split; [reflexivity|]. exact LB.
  - rewrite ES. destruct (admit_uses (pr_slots P) [(x, Moved)]) as [bt|]; [|exact I]. apply pass_like.
    split; [exact ET|]. split; [reflexivity|]. split; [exact EG|]. exact LB.
  - rewrite ES, EG, ET. destruct (_ && _)%bool; [|exact I]. pose proof (destroy_like P P' keep x L) as X.
    destruct (destroy_one P x), (destroy_one P' x); try contradiction; cbn [elike]; auto.
Qed.

Lemma run_like : forall m (acts : list (faction T St)) P P' keep, plike P P' keep -> (forall x, touched (pvisits m P acts) x -> keep x) ->
  elike _ (prun m P acts) (prun m P' acts) keep.
Proof.
  intros m acts. induction acts as [|a acts IH]; intros P P' keep L HV; cbn [process_run process_visits] in *; [split; auto|].
  assert (S : elike _ (pstep m P a) (pstep m P' a) keep).
  { apply step_like; auto. intros x (b & bs & I & X). apply HV. exists b, bs. split; auto. apply in_or_app. now left. }
  destruct (pstep m P a) as [| | |[P1 r]], (pstep m P' a) as [| | |[P1' r']]; cbn [elike] in S; try contradiction; auto.
  destruct S as [<- L1].
  assert (R : elike _ (prun m P1 acts) (prun m P1' acts) keep).
  { apply IH; auto. intros x (b & bs & I & X). apply HV. exists b, bs. split; auto. apply in_or_app. now right. }
  destruct (prun m P1 acts) as [| | |[P2 rs]], (prun m P1' acts) as [| | |[P2' rs']]; cbn [elike] in *; try contradiction; auto.
  destruct R as [<- R]. auto.
Qed.

Lemma reads_visited : forall m P (acts : list (faction T St)) M P1 rs,
  (forall x, touched (pvisits m P acts) x -> M x = y_mem (pr_bytes P) x) -> prun m P acts = Goes (P1, rs) ->
  exists M1, prun m (with_memory P M) acts = Goes (with_memory P1 M1, rs) /\
    forall x, M x = y_mem (pr_bytes P) x -> M1 x = y_mem (pr_bytes P1) x.
Proof.
  intros m P acts M P1 rs HV E.
  pose proof (run_like m acts P (with_memory P M) (fun x => M x = y_mem (pr_bytes P) x)) as R. rewrite E in R.
  destruct (prun m (with_memory P M) acts) as [| | |[P2 rs2]]; cbn [elike] in R;
    (destruct R as [-> (ET & ES & EG & EB & EL & EM)] || (exfalso; apply R)); try (split; [reflexivity|split; [reflexivity|split; [reflexivity|split; [reflexivity|split; auto]]]]); auto.
  exists (y_mem (pr_bytes P2)). split; auto. f_equal. f_equal. destruct P2 as [[? ? ?] ? ? ?], P1 as [[? ? ?] ? ? ?]. cbn in *. subst. reflexivity.
Qed.

(** *** Stores *)

Lemma back_memory : forall l (Y Y' : bytes B), give_back_all Y l = Ok Y' -> y_mem Y' = y_mem Y /\ y_log Y' = y_log Y.
Proof.
  intros l. induction l as [|b l IH]; intros Y Y' E; cbn [give_back_all] in E; [injection E as <-; auto|].
  apply bind_ok in E. destruct E as (Y1 & E1 & E2). apply IH in E2. destruct E2 as [-> ->]. unfold give_back in E1.
  destruct (snd b =? 0); [injection E1 as <-; auto|]. destruct (remove_block b (y_blocks Y)); [|discriminate]. injection E1 as <-. auto.
Qed.
Definition same_memory (P P' : process T B) : Prop := y_mem (pr_bytes P') = y_mem (pr_bytes P) /\ y_log (pr_bytes P') = y_log (pr_bytes P).
Lemma destroy_memory : forall (P P' : process T B) x, destroy_one P x = Ok P' -> same_memory P P'.
Proof.
  intros P P' x E. unfold destroy_one in E. destruct (nth_error (pr_table P) x); [|injection E as <-; split; auto].
  apply bind_ok in E. destruct E as (Y & E & F). injection F as <-. apply back_memory in E. exact E.
Qed.
Lemma each_memory : forall xs (P P' : process T B), destroy_each P xs = Ok P' -> same_memory P P'.
Proof.
  intros xs. induction xs as [|x xs IH]; intros P P' E; cbn [destroy_each] in E; [injection E as <-; split; auto|].
  apply bind_ok in E. destruct E as (P1 & E1 & E2). apply destroy_memory in E1. apply IH in E2. destruct E1, E2. split; congruence.
Qed.
Lemma pass_same : forall P xs (r : result T St) P' rs, pass_on P xs r = Goes (P', rs) -> same_memory P P'.
Proof.
  intros P xs r P' rs E.
  assert (D : (match destroy_each P xs with Ok P' => Goes (P', [r]) | _ => Undefined end) = Goes (P', rs) -> same_memory P P').
  { intros X. destruct (destroy_each P xs) as [P1| |] eqn:D; try discriminate X. injection X as <- _. exact (each_memory xs P P1 D). }
  unfold pass_on in E. destruct r; auto. injection E as <- _. split; reflexivity.
Qed.

Lemma step_changes : forall m P (a : faction T St) P' rs, pstep m P a = Goes (P', rs) ->
  (exists new, y_log (pr_bytes P') = new ++ y_log (pr_bytes P)) /\
  forall x, ~ touched (step_visits encode decode code choose m P a) x -> ~ handed_out (pr_bytes P) (pr_bytes P') x ->
    y_mem (pr_bytes P') x = y_mem (pr_bytes P) x.
Proof.
  intros m P a P' rs E. destruct a as [[o|x]|x]; cbn [process_step step_visits] in *.
  - destruct (admit_uses (pr_slots P) (uses o)) as [bt|]; [|discriminate]. unfold call_process in E.
    destruct (program code m (pr_table P) o) as [c|].
    + destruct (perform c (pr_bytes P)) as [[[[new r]| |] Y]|] eqn:PF; try discriminate; apply pass_same in E;
        destruct E as [E1 E2]; cbn [pr_bytes y_mem y_log] in E1, E2; destruct (perform_logs _ _ _ _ _ PF) as (nw & L).
      * split; [exists nw; congruence|]. intros x NV NH. rewrite E1. apply (perform_changes _ _ _ _ _ PF); auto.
        intros (n1 & b & X). apply NH. exists n1, b. now rewrite E2.
      * split; [exists nw; congruence|]. intros x NV NH. rewrite E1. apply (perform_changes _ _ _ _ _ PF); auto.
        intros (n1 & b & X). apply NH. exists n1, b. now rewrite E2.
    + apply pass_same in E. destruct E as [E1 E2]. cbn [pr_bytes] in E1, E2. split; [now exists []|]. intros x _ _. now rewrite E1.
  - destruct (admit_uses (pr_slots P) [(x, Moved)]) as [bt|]; [|discriminate]. apply pass_same in E. destruct E as [E1 E2].
    cbn [pr_bytes] in E1, E2. split; [now exists []|]. intros y _ _. now rewrite E1.
  - destruct (_ && _)%bool; [|discriminate]. destruct (destroy_one P x) as [P1| |] eqn:D; try discriminate. injection E as <- _.
    apply destroy_memory in D. destruct D as [E1 E2]. split; [now exists []|]. intros y _ _. now rewrite E1.
Qed.

Lemma stores_visited : forall m (acts : list (faction T St)) P P1 rs, prun m P acts = Goes (P1, rs) ->
  (exists new, y_log (pr_bytes P1) = new ++ y_log (pr_bytes P)) /\
  forall x, ~ touched (pvisits m P acts) x -> ~ handed_out (pr_bytes P) (pr_bytes P1) x -> y_mem (pr_bytes P1) x = y_mem (pr_bytes P) x.
Proof.
  intros m acts. induction acts as [|a acts IH]; intros P P1 rs E; cbn [process_run process_visits] in *.
  - injection E as <- _. split; [now exists []|]. auto.
  - destruct (pstep m P a) as [| | |[P2 r]] eqn:S; try discriminate.
    destruct (prun m P2 acts) as [| | |[P3 rs3]] eqn:R; try discriminate. injection E as <- _.
    destruct (step_changes m P a P2 r S) as ((n1 & L1) & C1). destruct (IH P2 P3 rs3 R) as ((n2 & L2) & C2).
    split; [exists (n2 ++ n1); now rewrite L2, L1, app_assoc|]. intros x NV NH. rewrite C2, C1; auto.
    + intros (b & bs & I & X). apply NV. exists b, bs. split; auto. apply in_or_app. now left.
    + intros (new & b & L & I & X). apply NH. exists (n2 ++ new), b. rewrite L2, L, app_assoc. split; auto. split; auto. apply in_or_app. now right.
    + intros (b & bs & I & X). apply NV. exists b, bs. split; auto. apply in_or_app. now right.
    + intros (new & b & L & I & X). apply NH. exists (new ++ n1), b. rewrite L, L1, app_assoc. split; auto. split; auto. apply in_or_app. now left.
Qed.
End Visits.
