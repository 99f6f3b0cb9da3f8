(** * OutOfMemoryProofs: proofs about the blocks that programs ask for. *)

From Coq Require Import Lia ZifyBool ZifyNat ZifyN.
From Verif Require Import Machine Layouts Memory Matrix MatMul Spec MatrixSpec ExprSpec ProductSpec.
From Verif Require Import Program HistorySpec Borrow Dealloc Threads Interleave Flat FlatProofs FlatHistory FlatThreads FlatThreadProofs OutOfMemory.
Local Open Scope N_scope.

Section Memory.
Context {T : Type} {SC : HScalar T} {St : Type} {B : Type}.
Variable encode : T -> list B.
Variable decode : list B -> T.
Variable code : gemm_args T -> prog T unit.
Notation bytes := (@bytes B).
Notation process := (@process T B).
Notation perform := (perform encode decode).
Notation requests := (requests encode decode).
Notation process_step := (process_step (St := St) encode decode code).
Notation process_run := (process_run (St := St) encode decode code).
Notation step_requests := (step_requests (St := St) encode decode code).

(** Blocks in use are not empty, and were handed out. *)
Definition tidy (Y : bytes) : Prop := forall b, In b (y_blocks Y) -> snd b <> 0 /\ In b (y_log Y).
Definition grown (Y Y' : bytes) : Prop := exists new, y_log Y' = new ++ y_log Y.

Lemma grown_refl : forall Y, grown Y Y.
Proof. intros Y. now exists []. Qed.
Lemma grown_trans : forall Y1 Y2 Y3, grown Y1 Y2 -> grown Y2 Y3 -> grown Y1 Y3.
Proof. intros Y1 Y2 Y3 (n & E) (n' & E'). exists (n' ++ n). rewrite E', E. apply app_assoc. Qed.
Lemma grown_count : forall Y Y', grown Y Y' -> (y_count Y <= y_count Y')%nat.
Proof. intros Y Y' (n & E). unfold y_count. rewrite E, app_length. lia. Qed.
Lemma take_grown : forall Y b l, grown Y (take encode Y b l).
Proof. intros Y b l. now exists [b]. Qed.
Lemma take_count : forall Y b l, y_count (take encode Y b l) = S (y_count Y).
Proof. reflexivity. Qed.

Lemma take_tidy : forall Y b l, tidy Y -> tidy (take encode Y b l).
Proof.
  intros Y b l H b' I. cbn [take y_blocks y_log] in *. destruct (N.eqb_spec (snd b) 0); [|destruct I as [<-|I]].
  - destruct (H _ I). split; auto. now right.
  - split; auto. now left.
  - destruct (H _ I). split; auto. now right.
Qed.

Lemma perform_tidy : forall choose A (c : prog T A) Y o Y', perform choose c Y = Some (o, Y') -> tidy Y -> tidy Y' /\ grown Y Y'.
Proof.
  intros choose A c. induction c as [o|p k IH|p v k IH|l k IH]; intros Y o' Y' E H; cbn [Flat.perform] in E.
  - injection E as _ <-. split; auto. apply grown_refl.
  - eapply IH; eauto.
  - exact (IH _ _ _ E H).
  - destruct (grants Y _); [|discriminate E]. apply IH in E; [|now apply take_tidy]. destruct E as (E1 & E2). split; auto.
    eapply grown_trans; [apply take_grown|exact E2].
Qed.

Lemma remove_sub : forall b l l', remove_block b l = Some l' -> incl l' l.
Proof.
  intros b l. induction l as [|b' l IH]; intros l' E; cbn [remove_block] in E; [discriminate|].
  destruct (block_eqb b b'); [injection E as <-; intros x I; now right|].
  destruct (remove_block b l) as [l1|] eqn:R; [|discriminate]. injection E as <-.
  intros x [<-|I]; [now left|right]. exact (IH l1 eq_refl x I).
Qed.
Lemma give_back_tidy : forall Y b Y', give_back Y b = Ok Y' -> tidy Y -> tidy Y' /\ grown Y Y'.
Proof.
  intros Y b Y' E H. unfold give_back in E. destruct (snd b =? 0); [injection E as <-; split; auto; apply grown_refl|].
  destruct (remove_block b (y_blocks Y)) as [l|] eqn:R; [|discriminate]. injection E as <-. split; [|now exists []].
  intros b' I. apply H. exact (remove_sub _ _ _ R _ I).
Qed.
Lemma give_all_tidy : forall l Y Y', give_back_all Y l = Ok Y' -> tidy Y -> tidy Y' /\ grown Y Y'.
Proof.
  intros l. induction l as [|b l IH]; intros Y Y' E H; cbn [give_back_all] in E.
  - injection E as <-. split; auto. apply grown_refl.
  - destruct (give_back Y b) as [Y1| |] eqn:G; try discriminate E. cbn [bind] in E.
    destruct (give_back_tidy _ _ _ G H) as (H1 & G1). destruct (IH _ _ E H1) as (H2 & G2). split; auto. eapply grown_trans; eauto.
Qed.
Lemma destroy_one_tidy : forall (P : process) x P', destroy_one P x = Ok P' -> tidy (pr_bytes P) -> tidy (pr_bytes P') /\ grown (pr_bytes P) (pr_bytes P').
Proof.
  intros P x P' E H. unfold destroy_one in E. destruct (nth_error (pr_table P) x) as [v|]; [|injection E as <-; split; auto; apply grown_refl].
  destruct (give_back_all (pr_bytes P) (owned_blocks v)) as [Y| |] eqn:G; try discriminate E. injection E as <-.
  exact (give_all_tidy _ _ _ G H).
Qed.
Lemma destroy_each_tidy : forall xs (P P' : process), destroy_each P xs = Ok P' -> tidy (pr_bytes P) -> tidy (pr_bytes P') /\ grown (pr_bytes P) (pr_bytes P').
Proof.
  intros xs. induction xs as [|x xs IH]; intros P P' E H; cbn [destroy_each] in E.
  - injection E as <-. split; auto. apply grown_refl.
  - destruct (destroy_one P x) as [P1| |] eqn:G; try discriminate E. cbn [bind] in E.
    destruct (destroy_one_tidy _ _ _ G H) as (H1 & G1). destruct (IH _ _ E H1) as (H2 & G2). split; auto. eapply grown_trans; eauto.
Qed.
Lemma pass_on_tidy : forall (P : process) xs (r : result T St) P' rs, pass_on P xs r = Goes (P', rs) ->
  tidy (pr_bytes P) -> tidy (pr_bytes P') /\ grown (pr_bytes P) (pr_bytes P').
Proof.
  intros P xs r P' rs E H. unfold pass_on in E.
  destruct r; try (injection E as <- _; cbn [pr_bytes]; split; [assumption|apply grown_refl]);
    destruct (destroy_each P xs) as [P1| |] eqn:G; try discriminate E; injection E as <- _; exact (destroy_each_tidy _ _ _ G H).
Qed.
Lemma call_tidy : forall choose m (P : process) bt (o : call T St) P' r, call_process encode decode code choose m P bt o = Goes (P', r) ->
  tidy (pr_bytes P) -> tidy (pr_bytes P') /\ grown (pr_bytes P) (pr_bytes P').
Proof.
  intros choose m P bt o P' r E H. unfold call_process in E.
  destruct (program code m (pr_table P) o) as [c|]; [|injection E as <- _; split; auto; apply grown_refl].
  destruct (perform choose c (pr_bytes P)) as [[[[new r']| |] Y]|] eqn:Q; try discriminate E; injection E as <- _; cbn [pr_bytes];
    destruct (perform_tidy _ _ _ _ _ _ Q H) as (H1 & G1); split; auto.
  intros b I. cbn [y_blocks y_log] in *. destruct (H b I) as (Z & L). split; auto. destruct G1 as (n & ->). apply in_or_app. now right.
Qed.
Lemma step_tidy : forall choose m (P : process) fa P' rs, process_step choose m P fa = Goes (P', rs) ->
  tidy (pr_bytes P) -> tidy (pr_bytes P') /\ grown (pr_bytes P) (pr_bytes P').
Proof.
  intros choose m P fa P' rs E H. unfold Flat.process_step in E. destruct fa as [[o|x]|x].
  - destruct (admit_uses (pr_slots P) (uses o)) as [bt|]; [|discriminate E].
    destruct (call_process encode decode code choose m P bt o) as [| | |[P1 r]] eqn:C; try discriminate E.
    destruct (call_tidy _ _ _ _ _ _ _ C H) as (H1 & G1). destruct (pass_on_tidy _ _ _ _ _ E H1) as (H2 & G2). split; auto. eapply grown_trans; eauto.
  - destruct (admit_uses (pr_slots P) [(x, Moved)]) as [bt|]; [|discriminate E]. exact (pass_on_tidy _ _ _ _ _ E H).
  - destruct (_ && _); [|discriminate E]. destruct (destroy_one P x) as [P1| |] eqn:D; try discriminate E. injection E as <- _. exact (destroy_one_tidy _ _ _ D H).
Qed.

(** ** Refusals *)

Lemma not_apart : forall b b' : nat * N, snd b <> 0 -> snd b' <> 0 -> blocks_apart b b' = false -> exists x, in_block b x /\ in_block b' x.
Proof.
  intros b b' Z Z' E. unfold blocks_apart in E. apply Bool.orb_false_elim in E. destruct E as (E & E').
  pose proof (size_pos (T := T)). assert (0 < snd b * item_size) by nia. assert (0 < snd b' * item_size) by nia.
  exists (N.max (N.of_nat (fst b)) (N.of_nat (fst b'))). unfold in_block. lia.
Qed.

Lemma refused : forall (Y : bytes) b, (forall b', In b' (y_blocks Y) -> snd b' <> 0) -> grants Y b = false -> not_free b (y_blocks Y).
Proof.
  intros Y b H E. unfold grants in E. apply Bool.orb_false_elim in E. destruct E as (Z & E). apply N.eqb_neq in Z. split; auto.
  apply Bool.andb_false_elim in E. destruct E as [E|E]; [left; lia|right].
  assert (X : exists b', In b' (y_blocks Y) /\ blocks_apart b b' = false).
  { clear -E. induction (y_blocks Y) as [|b' l IH]; [discriminate E|]. cbn [forallb] in E.
    destruct (blocks_apart b b') eqn:A; [|exists b'; split; [now left|exact A]]. destruct (IH E) as (b2 & I & A2). exists b2. split; [now right|exact A2]. }
  destruct X as (b' & I & A). destruct (not_apart b b' Z (H _ I) A) as (x & X1 & X2). exists b', x. auto.
Qed.

Lemma perform_refused : forall choose A (c : prog T A) Y, tidy Y -> perform choose c Y = None ->
  exists b Y', In (b, Y') (requests choose c Y) /\ not_free b (y_blocks Y').
Proof.
  intros choose A c. induction c as [o|p k IH|p v k IH|l k IH]; intros Y H E; cbn [Flat.perform OutOfMemory.requests] in *.
  - discriminate E.
  - eapply IH; eauto.
  - eapply IH; eauto.
  - destruct (grants Y _) eqn:G.
    + apply IH in E; [|now apply take_tidy]. destruct E as (b & Y' & I & N). exists b, Y'. split; auto. now right.
    + eexists _, Y. split; [now left|]. apply refused; auto. intros b' I. now apply H.
Qed.

Lemma call_no_memory : forall choose m (P : process) bt (o : call T St), call_process encode decode code choose m P bt o = NoMemory ->
  exists c, program code m (pr_table P) o = Some c /\ perform choose c (pr_bytes P) = None.
Proof.
  intros choose m P bt o E. unfold call_process in E. destruct (program code m (pr_table P) o) as [c|]; [|discriminate E]. exists c. split; auto.
  destruct (perform choose c (pr_bytes P)) as [[[[new r']| |] Y]|]; try discriminate E. reflexivity.
Qed.
Lemma pass_on_memory : forall (P : process) xs (r : result T St), pass_on P xs r <> NoMemory.
Proof. intros P xs r. unfold pass_on. destruct r; try discriminate; destruct (destroy_each P xs); discriminate. Qed.

Lemma step_no_memory : forall choose m (P : process) fa, process_step choose m P fa = NoMemory ->
  exists o bt c, fa = Act (Do o) /\ admit_uses (pr_slots P) (uses o) = Some bt /\ program code m (pr_table P) o = Some c /\ perform choose c (pr_bytes P) = None.
Proof.
  intros choose m P fa E. unfold Flat.process_step in E. destruct fa as [[o|x]|x].
  - destruct (admit_uses (pr_slots P) (uses o)) as [bt|] eqn:U; [|discriminate E].
    destruct (call_process encode decode code choose m P bt o) as [| | |[P1 r]] eqn:C; try discriminate E.
    + destruct (call_no_memory _ _ _ _ _ C) as (c & C1 & C2). exists o, bt, c. auto.
    + now apply pass_on_memory in E.
  - destruct (admit_uses (pr_slots P) [(x, Moved)]) as [bt|]; [|discriminate E]. now apply pass_on_memory in E.
  - destruct (_ && _); [|discriminate E]. destruct (destroy_one P x); discriminate E.
Qed.

Lemma step_refused : forall choose m (P : process) fa, tidy (pr_bytes P) -> process_step choose m P fa = NoMemory ->
  exists b Y, In (b, Y) (step_requests choose m P fa) /\ not_free b (y_blocks Y).
Proof.
  intros choose m P fa H E. apply step_no_memory in E. destruct E as (o & bt & c & -> & U & C & Q).
  unfold OutOfMemory.step_requests. rewrite U, C. now apply perform_refused.
Qed.

Lemma asks_next : forall choose m (P : process) fa acts P1 r b Y, process_step choose m P fa = Goes (P1, r) ->
  asks encode decode code choose m P1 acts b Y -> asks encode decode code choose m P (fa :: acts) b Y.
Proof.
  intros choose m P fa acts P1 r b Y E (a1 & a & a2 & P2 & rs & -> & R & I). exists (fa :: a1), a, a2, P2. eexists.
  split; [reflexivity|]. split; [|exact I]. cbn [Flat.process_run]. rewrite E, R. reflexivity.
Qed.
Lemma asks_here : forall choose m (P : process) fa acts b Y, In (b, Y) (step_requests choose m P fa) ->
  asks encode decode code choose m P (fa :: acts) b Y.
Proof. intros choose m P fa acts b Y I. exists [], fa, acts, P, []. auto. Qed.

Lemma run_refused : forall choose m acts (P : process), tidy (pr_bytes P) -> process_run choose m P acts = NoMemory ->
  exists b Y, asks encode decode code choose m P acts b Y /\ not_free b (y_blocks Y).
Proof.
  intros choose m acts. induction acts as [|fa acts IH]; intros P H E; cbn [Flat.process_run] in E; [discriminate E|].
  destruct (process_step choose m P fa) as [| | |[P1 r]] eqn:S; try discriminate E.
  - destruct (step_refused _ _ _ _ H S) as (b & Y & I & N). exists b, Y. split; auto. now apply asks_here.
  - destruct (process_run choose m P1 acts) as [| | |[P2 rs]] eqn:R; try discriminate E.
    destruct (IH P1) as (b & Y & A & N); [exact (proj1 (step_tidy _ _ _ _ _ _ S H))|exact R|]. exists b, Y. split; auto. eapply asks_next; eauto.
Qed.

Lemma granted : forall (Y : bytes) b, grants Y b = true -> ~ not_free b (y_blocks Y).
Proof.
  intros Y b E (Z & X). unfold grants in E. apply Bool.orb_true_iff in E. destruct E as [E|E]; [lia|]. apply andb_prop in E. destruct E as (E & A).
  destruct X as [X|(b' & x & I & X1 & X2)]; [lia|]. rewrite forallb_forall in A. specialize (A _ I). unfold blocks_apart, in_block in *. lia.
Qed.
Lemma perform_granted : forall choose A (c : prog T A) Y b Y', perform choose c Y <> None -> In (b, Y') (requests choose c Y) -> ~ not_free b (y_blocks Y').
Proof.
  intros choose A c. induction c as [o|p k IH|p v k IH|l k IH]; intros Y b Y' E I; cbn [Flat.perform OutOfMemory.requests] in *.
  - destruct I.
  - eapply IH; eauto.
  - eapply IH; eauto.
  - destruct (grants Y _) eqn:G; [|congruence]. destruct I as [I|I]; [injection I as <- <-; now apply granted|eapply IH; eauto].
Qed.
Lemma run_granted : forall choose m acts (P : process) b Y x, process_run choose m P acts = Goes x -> asks encode decode code choose m P acts b Y -> ~ not_free b (y_blocks Y).
Proof.
  intros choose m acts P b Y x E (a1 & a & a2 & P1 & rs & -> & R & I). revert P x rs E R. induction a1 as [|a' a1 IH]; intros P x rs E R; cbn [app Flat.process_run] in *.
  - injection R as <- _. unfold OutOfMemory.step_requests in I. unfold Flat.process_step in E. destruct a as [[o|y]|y]; try destruct I.
    destruct (admit_uses (pr_slots P) (uses o)) as [bt|]; [|destruct I]. unfold call_process in E. destruct (program code m (pr_table P) o) as [c|]; [|destruct I].
    eapply perform_granted; [|exact I]. intros Q. rewrite Q in E. discriminate E.
  - destruct (process_step choose m P a') as [| | |[P2 r]]; try discriminate E.
    destruct (process_run choose m P2 a1) as [| | |[P3 rs3]] eqn:R3; try discriminate R. injection R as -> _.
    destruct (process_run choose m P2 (a1 ++ a :: a2)) as [| | |y] eqn:E3; try discriminate E. exact (IH P2 y rs3 E3 R3).
Qed.

(** ** A run depends on the choices it makes *)

Lemma perform_from : forall f g A (c : prog T A) Y, (forall n, (y_count Y <= n)%nat -> f n = g n) ->
  perform f c Y = perform g c Y /\ requests f c Y = requests g c Y.
Proof.
  intros f g A c. induction c as [o|p k IH|p v k IH|l k IH]; intros Y H; cbn [Flat.perform OutOfMemory.requests]; auto.
  rewrite (H _ (le_n _)). destruct (grants Y _); auto.
  edestruct IH as (E1 & E2); [|rewrite E1, E2; auto]. intros n L. apply H. rewrite take_count in L. lia.
Qed.
Lemma step_from : forall f g m (P : process) fa, (forall n, (y_count (pr_bytes P) <= n)%nat -> f n = g n) ->
  process_step f m P fa = process_step g m P fa /\ step_requests f m P fa = step_requests g m P fa.
Proof.
  intros f g m P fa H. unfold Flat.process_step, OutOfMemory.step_requests, call_process. destruct fa as [[o|x]|x]; auto.
  destruct (admit_uses (pr_slots P) (uses o)) as [bt|]; auto. destruct (program code m (pr_table P) o) as [c|]; auto.
  destruct (perform_from f g _ c _ H) as (E1 & E2). rewrite E1, E2. auto.
Qed.
Lemma run_from : forall f g m acts (P : process), tidy (pr_bytes P) -> (forall n, (y_count (pr_bytes P) <= n)%nat -> f n = g n) ->
  process_run f m P acts = process_run g m P acts.
Proof.
  intros f g m acts. induction acts as [|fa acts IH]; intros P HT H; cbn [Flat.process_run]; auto.
  rewrite <- (proj1 (step_from f g m P fa H)). destruct (process_step f m P fa) as [| | |[P1 r]] eqn:S; auto.
  destruct (step_tidy _ _ _ _ _ _ S HT) as (H1 & G1). rewrite (IH P1); auto. intros n L. apply H. apply grown_count in G1. lia.
Qed.

Lemma run_tidy : forall f m acts (P : process) P' rs, process_run f m P acts = Goes (P', rs) -> tidy (pr_bytes P) -> tidy (pr_bytes P') /\ grown (pr_bytes P) (pr_bytes P').
Proof.
  intros f m acts. induction acts as [|fa acts IH]; intros P P' rs E H; cbn [Flat.process_run] in E; [injection E as <- _; split; auto; apply grown_refl|].
  destruct (process_step f m P fa) as [| | |[P1 r]] eqn:S; try discriminate E.
  destruct (process_run f m P1 acts) as [| | |[P2 rs2]] eqn:R; try discriminate E. injection E as <- _.
  destruct (step_tidy _ _ _ _ _ _ S H) as (H1 & G1). destruct (IH _ _ _ R H1) as (H2 & G2). split; auto. eapply grown_trans; eauto.
Qed.

Lemma asks_from : forall f g m (acts : list (faction T St)) (P : process) b Y, tidy (pr_bytes P) -> (forall n, (y_count (pr_bytes P) <= n)%nat -> f n = g n) ->
  asks encode decode code f m P acts b Y -> asks encode decode code g m P acts b Y.
Proof.
  intros f g m acts P b Y HT H (a1 & a & a2 & P2 & rs & E & R & I). exists a1, a, a2, P2, rs. split; auto.
  destruct (run_tidy _ _ _ _ _ _ R HT) as (H1 & G1). apply grown_count in G1. split; [rewrite <- R; symmetry; now apply run_from|].
  rewrite <- (proj2 (step_from f g m P2 a ltac:(intros n L; apply H; lia))). exact I.
Qed.

Lemma perform_upto : forall f g A (c : prog T A) Y o Y', tidy Y -> perform f c Y = Some (o, Y') -> (forall n, (n < y_count Y')%nat -> f n = g n) ->
  perform g c Y = Some (o, Y').
Proof.
  intros f g A c. induction c as [o|p k IH|p v k IH|l k IH]; intros Y o' Y' HT E H; cbn [Flat.perform] in *; auto.
  - destruct (grants Y (f (y_count Y), _)) eqn:G; [|discriminate E].
    assert (L : (S (y_count Y) <= y_count Y')%nat).
    { destruct (perform_tidy _ _ _ _ _ _ E) as (_ & G1); [now apply take_tidy|]. apply grown_count in G1. rewrite take_count in G1. exact G1. }
    rewrite <- (H (y_count Y)) by lia. rewrite G. eapply IH; eauto. now apply take_tidy.
Qed.
Lemma step_upto : forall f g m (P : process) fa P' rs, tidy (pr_bytes P) -> process_step f m P fa = Goes (P', rs) ->
  (forall n, (n < y_count (pr_bytes P'))%nat -> f n = g n) -> process_step g m P fa = Goes (P', rs).
Proof.
  intros f g m P fa P' rs HT E H. unfold Flat.process_step in *. destruct fa as [[o|x]|x]; auto.
  destruct (admit_uses (pr_slots P) (uses o)) as [bt|]; auto. destruct (call_process encode decode code f m P bt o) as [| | |[P1 r]] eqn:C; try discriminate E.
  assert (X : call_process encode decode code g m P bt o = Goes (P1, r)); [|now rewrite X].
  destruct (call_tidy _ _ _ _ _ _ _ C HT) as (H1 & _). destruct (pass_on_tidy _ _ _ _ _ E H1) as (_ & G2). apply grown_count in G2.
  unfold call_process in *. destruct (program code m (pr_table P) o) as [c|]; auto.
  destruct (perform f c (pr_bytes P)) as [[o' Y]|] eqn:Q; [|discriminate C].
  assert (LY : y_count Y = y_count (pr_bytes P1)). { destruct o' as [[new r']| |]; try discriminate C; injection C as <- _; reflexivity. }
  rewrite (perform_upto f g _ c _ o' Y HT Q); auto. intros n L. apply H. lia.
Qed.

(** ** An allocator that always goes on *)

Definition top (Y : bytes) : N := (1 + items (y_log Y)) * item_size (T := T).
Definition bumped (Y : bytes) : Prop := forall b, In b (y_log Y) -> N.of_nat (fst b) + snd b * item_size <= top Y.
Definition neat (f : nat -> nat) : Prop := forall n, exists k, 0 < k /\ N.of_nat (f n) = k * item_size (T := T).

Lemma items_app : forall l l', items (l ++ l') = items l + items l'.
Proof. intros l l'. induction l; cbn [app items fold_right]; [reflexivity|]. fold (items (l ++ l')) (items l). lia. Qed.

Lemma bumped_take : forall Y b l, bumped Y -> N.of_nat (fst b) = top Y -> bumped (take encode Y b l).
Proof.
  intros Y b l H E b' I. unfold bumped, top in *. cbn [take y_log items fold_right] in *. fold (items (y_log Y)).
  destruct I as [<-|I]; [|specialize (H _ I)]; nia.
Qed.
Lemma bumped_log : forall Y Y', y_log Y' = y_log Y -> bumped Y -> bumped Y'.
Proof. intros Y Y' E H. unfold bumped, top in *. now rewrite E. Qed.

Lemma bump_grants : forall Y n, tidy Y -> bumped Y -> grants Y (N.to_nat (top Y), n) = true \/ grants Y (N.to_nat (top Y), n) = false /\ usize_mod < (1 + items (y_log Y) + n) * item_size (T := T).
Proof.
  intros Y n HT H. destruct (grants Y (N.to_nat (top Y), n)) eqn:G; [now left|right]. split; auto.
  destruct (N.ltb_spec usize_mod ((1 + items (y_log Y) + n) * item_size (T := T))) as [L|L]; auto. exfalso.
  rewrite <- Bool.not_true_iff_false in G. apply G. clear G. unfold grants. cbn [fst snd]. rewrite N2Nat.id.
  replace (top Y + n * item_size <=? usize_mod) with true by (symmetry; apply N.leb_le; unfold top; lia).
  apply Bool.orb_true_iff. right. cbn [andb]. apply forallb_forall. intros b I. unfold blocks_apart. cbn [fst snd]. rewrite N2Nat.id.
  apply Bool.orb_true_iff. right. apply N.leb_le. apply H. now apply HT.
Qed.

Lemma neat_top : forall Y, neat (fun _ => N.to_nat (top Y)).
Proof. intros Y n. exists (1 + items (y_log Y)). split; [lia|]. unfold top. lia. Qed.

Lemma perform_bump : forall A (c : prog T A) Y, tidy Y -> bumped Y -> exists f, neat f /\
  match perform f c Y with
  | Some (_, Y') => bumped Y'
  | None => exists b Y', In (b, Y') (requests f c Y) /\ usize_mod < (1 + items (y_log Y') + snd b) * item_size (T := T)
  end.
Proof.
  intros A c. induction c as [o|p k IH|p v k IH|l k IH]; intros Y HT HB; cbn [Flat.perform OutOfMemory.requests].
  - exists (fun _ => N.to_nat (top Y)). split; [apply neat_top|exact HB].
  - apply IH; auto.
  - apply IH; auto.
  - destruct (bump_grants Y (N.of_nat (length l)) HT HB) as [G|(G & L)].
    + destruct (IH (mkRegion (N.to_nat (top Y)) 0 (N.of_nat (length l))) (take encode Y (N.to_nat (top Y), N.of_nat (length l)) l)) as (f & NF & F);
        [now apply take_tidy|apply bumped_take; [assumption|cbn [fst]; apply N2Nat.id]|].
      exists (fun n => if Nat.eqb n (y_count Y) then N.to_nat (top Y) else f n). split.
      { intros n. destruct (Nat.eqb n (y_count Y)); [apply (neat_top Y n)|apply NF]. }
      rewrite Nat.eqb_refl. rewrite G. cbn [fst snd].
      edestruct (perform_from (fun n => if Nat.eqb n (y_count Y) then N.to_nat (top Y) else f n) f) as (E1 & E2); [|rewrite E1, E2].
      { intros n Ln. rewrite take_count in Ln. destruct (Nat.eqb_spec n (y_count Y)); [lia|reflexivity]. }
      destruct (perform f _ _) as [[o Y']|]; auto. destruct F as (b & Y' & I & L). exists b, Y'. split; auto. now right.
    + exists (fun _ => N.to_nat (top Y)). split; [apply neat_top|]. rewrite G. eexists _, Y. split; [now left|exact L].
Qed.

Lemma step_bumped : forall choose m (P : process) fa P' rs, tidy (pr_bytes P) -> process_step choose m P fa = Goes (P', rs) ->
  (forall o c Y o', fa = Act (Do o) -> program code m (pr_table P) o = Some c -> perform choose c (pr_bytes P) = Some (o', Y) -> bumped Y) ->
  bumped (pr_bytes P) -> bumped (pr_bytes P').
Proof.
  assert (G : forall (Y : bytes) b Y', give_back Y b = Ok Y' -> y_log Y' = y_log Y).
  { intros Y b Y' E. unfold give_back in E. destruct (snd b =? 0); [now injection E as <-|]. destruct (remove_block b (y_blocks Y)); [|discriminate E]. now injection E as <-. }
  assert (GA : forall l (Y : bytes) Y', give_back_all Y l = Ok Y' -> y_log Y' = y_log Y).
  { intros l. induction l as [|b l IH]; intros Y Y' E; cbn [give_back_all] in E; [now injection E as <-|].
    destruct (give_back Y b) as [Y1| |] eqn:E1; try discriminate E. cbn [bind] in E. rewrite (IH _ _ E). eapply G; eauto. }
  assert (D : forall (P : process) x P', destroy_one P x = Ok P' -> y_log (pr_bytes P') = y_log (pr_bytes P)).
  { intros P x P' E. unfold destroy_one in E. destruct (nth_error (pr_table P) x) as [v|]; [|now injection E as <-].
    destruct (give_back_all (pr_bytes P) (owned_blocks v)) as [Y| |] eqn:E1; try discriminate E. injection E as <-. eapply GA; eauto. }
  assert (DA : forall xs (P : process) P', destroy_each P xs = Ok P' -> y_log (pr_bytes P') = y_log (pr_bytes P)).
  { intros xs. induction xs as [|x xs IH]; intros P P' E; cbn [destroy_each] in E; [now injection E as <-|].
    destruct (destroy_one P x) as [P1| |] eqn:E1; try discriminate E. cbn [bind] in E. rewrite (IH _ _ E). eapply D; eauto. }
  assert (PO : forall (P : process) xs (r : result T St) P' rs, pass_on P xs r = Goes (P', rs) -> y_log (pr_bytes P') = y_log (pr_bytes P)).
  { intros P xs r P' rs E. unfold pass_on in E. destruct r; try (now injection E as <- _);
      destruct (destroy_each P xs) as [P1| |] eqn:E1; try discriminate E; injection E as <- _; eapply DA; eauto. }
  intros choose m P fa P' rs HT E HP HB. unfold Flat.process_step in E. destruct fa as [[o|x]|x].
  - destruct (admit_uses (pr_slots P) (uses o)) as [bt|]; [|discriminate E].
    destruct (call_process encode decode code choose m P bt o) as [| | |[P1 r]] eqn:C; try discriminate E.
    apply PO in E. apply (bumped_log _ _ E). unfold call_process in C. destruct (program code m (pr_table P) o) as [c|] eqn:Ec; [|now injection C as <- _].
    destruct (perform choose c (pr_bytes P)) as [[[[new r']| |] Y]|] eqn:Q; try discriminate C; injection C as <- _; cbn [pr_bytes].
    + eapply HP; eauto.
    + eapply bumped_log; [|eapply HP; eauto]. reflexivity.
  - destruct (admit_uses (pr_slots P) [(x, Moved)]) as [bt|]; [|discriminate E]. apply PO in E. exact (bumped_log _ _ E HB).
  - destruct (_ && _); [|discriminate E]. destruct (destroy_one P x) as [P1| |] eqn:E1; try discriminate E. injection E as <- _. apply D in E1. exact (bumped_log _ _ E1 HB).
Qed.

Lemma step_bump : forall m (P : process) fa, tidy (pr_bytes P) -> bumped (pr_bytes P) -> exists f, neat f /\
  match process_step f m P fa with
  | Goes (P', _) => bumped (pr_bytes P')
  | NoMemory => exists b Y, In (b, Y) (step_requests f m P fa) /\ usize_mod < (1 + items (y_log Y) + snd b) * item_size (T := T)
  | _ => True
  end.
Proof.
  intros m P fa HT HB.
  assert (X : exists f, neat f /\ forall o c, fa = Act (Do o) -> program code m (pr_table P) o = Some c ->
    match perform f c (pr_bytes P) with
    | Some (_, Y') => bumped Y'
    | None => exists b Y', In (b, Y') (requests f c (pr_bytes P)) /\ usize_mod < (1 + items (y_log Y') + snd b) * item_size (T := T)
    end).
  { destruct fa as [[o|x]|x]; [destruct (program code m (pr_table P) o) as [c|] eqn:C|..].
    - destruct (perform_bump _ c _ HT HB) as (f & NF & F). exists f. split; auto. intros o' c' E E'. injection E as <-. rewrite C in E'. injection E' as <-. exact F.
    - exists (fun _ => N.to_nat (top (pr_bytes P))). split; [apply neat_top|]. intros o' c' E E'. injection E as <-. congruence.
    - exists (fun _ => N.to_nat (top (pr_bytes P))). split; [apply neat_top|]. intros o' c' E E'. discriminate E.
    - exists (fun _ => N.to_nat (top (pr_bytes P))). split; [apply neat_top|]. intros o' c' E E'. discriminate E. }
  destruct X as (f & NF & F). exists f. split; auto. destruct (process_step f m P fa) as [| | |[P' r]] eqn:S; auto.
  - apply step_no_memory in S. destruct S as (o & bt & c & -> & U & C & Q). unfold OutOfMemory.step_requests. rewrite U, C.
    specialize (F o c eq_refl C). rewrite Q in F. exact F.
  - eapply step_bumped; eauto. intros o c Y o' E C Q. specialize (F o c E C). rewrite Q in F. exact F.
Qed.

Lemma run_bump : forall m acts (P : process), tidy (pr_bytes P) -> bumped (pr_bytes P) -> exists f, neat f /\
  (process_run f m P acts = NoMemory -> exists b Y, asks encode decode code f m P acts b Y /\ usize_mod < (1 + items (y_log Y) + snd b) * item_size (T := T)).
Proof.
  intros m acts. induction acts as [|fa acts IH]; intros P HT HB.
  - exists (fun _ => N.to_nat (top (pr_bytes P))). split; [apply neat_top|discriminate].
  - destruct (step_bump m P fa HT HB) as (f & NF & F). destruct (process_step f m P fa) as [| | |[P1 r]] eqn:S.
    + exists f. split; auto. cbn [Flat.process_run]. rewrite S. discriminate.
    + exists f. split; auto. intros _. destruct F as (b & Y & I & L). exists b, Y. split; auto. now apply asks_here.
    + exists f. split; auto. cbn [Flat.process_run]. rewrite S. discriminate.
    + destruct (step_tidy _ _ _ _ _ _ S HT) as (H1 & G1). destruct (IH P1 H1 F) as (f2 & NF2 & F2).
      set (g := fun n => if (n <? y_count (pr_bytes P1))%nat then f n else f2 n).
      assert (S' : process_step g m P fa = Goes (P1, r)).
      { apply (step_upto f g); auto. intros n L. unfold g. destruct (Nat.ltb_spec n (y_count (pr_bytes P1))); [reflexivity|lia]. }
      assert (FG : forall n, (y_count (pr_bytes P1) <= n)%nat -> f2 n = g n).
      { intros n L. unfold g. destruct (Nat.ltb_spec n (y_count (pr_bytes P1))); [lia|reflexivity]. }
      exists g. split; [intros n; unfold g; destruct (_ <? _)%nat; [apply NF|apply NF2]|].
      cbn [Flat.process_run]. rewrite S'. rewrite <- (run_from f2 g m acts P1 H1 FG). intros E.
      destruct F2 as (b & Y & A & L); [destruct (process_run f2 m P1 acts) as [| | |[P2 rs]]; [discriminate E|reflexivity|discriminate E|discriminate E]|].
      exists b, Y. split; auto. eapply asks_next; [exact S'|]. eapply asks_from; eauto.
Qed.

Lemma begin_tidy : forall M, tidy (pr_bytes (begin_process (T := T) M)) /\ bumped (pr_bytes (begin_process (T := T) M)).
Proof. intros M. split; intros b []. Qed.

(** ** Threads *)

Notation turn := (turn (St := St) encode decode code).
Notation turns := (turns (St := St) encode decode code).

Lemma turn_used : forall choose m (M M' : fmachine T St B) k, turn choose m M k = Goes M' ->
  (forall b, In b (fm_used M) -> snd b <> 0) -> forall b, In b (fm_used M') -> snd b <> 0.
Proof.
  intros choose m M M' k E H b I. unfold FlatThreads.turn in E. cbv zeta in E. destruct (ft_now (fm_thread M k)) as [[[o new] c]|].
  - destruct c as [[[ms r]| |]|q c|q v c|ls c]; try discriminate E; try (injection E as <-; cbn [fm_used] in I; auto).
    + apply filter_In in I. now apply H.
    + destruct (grants _ _); [|discriminate E]. injection E as <-. cbn [fm_used take y_blocks snd] in I.
      destruct (N.eqb_spec (N.of_nat (length ls)) 0); auto. destruct I as [<-|I]; auto.
  - destruct (ft_left (fm_thread M k)) as [|o rest]; [injection E as <-; auto|].
    destruct (program code m (ft_table (fm_thread M k)) o); injection E as <-; cbn [fm_used] in I; auto.
Qed.

Lemma turn_no_memory : forall choose m (M : fmachine T St B) k, turn choose m M k = NoMemory ->
  exists b, next_request choose k (fm_thread M k) = Some b /\ grants (mkBytes (fm_mem M) (fm_used M) []) b = false.
Proof.
  intros choose m M k E. unfold FlatThreads.turn in E. unfold next_request. cbv zeta in E. destruct (ft_now (fm_thread M k)) as [[[o new] c]|].
  - destruct c as [[[ms r]| |]|q c|q v c|ls c]; try discriminate E.
    destruct (grants _ _) eqn:G; [discriminate E|]. eauto.
  - destruct (ft_left (fm_thread M k)) as [|o rest]; [discriminate E|]. destruct (program code m (ft_table (fm_thread M k)) o); discriminate E.
Qed.

Lemma turns_refused : forall choose m sched (M : fmachine T St B), (forall b, In b (fm_used M) -> snd b <> 0) -> turns choose m M sched = NoMemory ->
  exists s1 k s2 M1 b, sched = s1 ++ k :: s2 /\ turns choose m M s1 = Goes M1 /\ next_request choose k (fm_thread M1 k) = Some b /\ not_free b (fm_used M1).
Proof.
  intros choose m sched. induction sched as [|k sched IH]; intros M H E; cbn [FlatThreads.turns] in E; [discriminate E|].
  destruct (turn choose m M k) as [| | |M1] eqn:S; try discriminate E.
  - destruct (turn_no_memory _ _ _ _ S) as (b & Eb & G). exists [], k, sched, M, b. split; [reflexivity|]. split; [reflexivity|]. split; [exact Eb|]. exact (refused (mkBytes (fm_mem M) (fm_used M) []) _ H G).
  - destruct (IH M1) as (s1 & k1 & s2 & M2 & b & -> & R & Q); [exact (turn_used _ _ _ _ _ S H)|exact E|].
    exists (k :: s1), k1, s2, M2, b. split; [reflexivity|]. split; [cbn [FlatThreads.turns]; now rewrite S|exact Q].
Qed.

Lemma turns_granted : forall choose m s1 k s2 (M M1 M2 : fmachine T St B) b, turns choose m M (s1 ++ k :: s2) = Goes M2 -> turns choose m M s1 = Goes M1 ->
  next_request choose k (fm_thread M1 k) = Some b -> ~ not_free b (fm_used M1).
Proof.
  intros choose m s1 k s2 M M1 M2 b E R Q. rewrite turns_app, R in E. cbn [FlatThreads.turns] in E.
  destruct (turn choose m M1 k) as [| | |M3] eqn:X; try discriminate E. unfold next_request in Q. unfold FlatThreads.turn in X. cbv zeta in X.
  destruct (ft_now (fm_thread M1 k)) as [[[o new] [| | |ls c]]|]; try discriminate Q. injection Q as <-.
  destruct (grants _ _) eqn:G; [|discriminate X]. exact (granted (mkBytes (fm_mem M1) (fm_used M1) []) _ G).
Qed.

(** The next choice is all that a turn depends on. *)
Definition ahead (M : fmachine T St B) (f g : nat -> nat -> nat) : Prop :=
  forall k n, (ft_count (fm_thread M k) <= n)%nat -> f k n = g k n.

Lemma turn_counts : forall choose m (M M' : fmachine T St B) k, turn choose m M k = Goes M' ->
  forall j, ft_count (fm_thread M' j) = match next_request choose k (fm_thread M k) with
    | Some _ => if Nat.eqb j k then S (ft_count (fm_thread M j)) else ft_count (fm_thread M j)
    | None => ft_count (fm_thread M j)
    end.
Proof.
  intros choose m M M' k E j. unfold FlatThreads.turn in E. unfold next_request. cbv zeta in E.
  assert (P : forall t, ft_count (put_thread (fm_thread M) k t j) = if Nat.eqb j k then ft_count t else ft_count (fm_thread M j)).
  { intros t. unfold put_thread. now destruct (Nat.eqb j k). }
  assert (Q : forall t, ft_count t = ft_count (fm_thread M k) -> ft_count (put_thread (fm_thread M) k t j) = ft_count (fm_thread M j)).
  { intros t Et. rewrite P. destruct (Nat.eqb_spec j k); congruence. }
  destruct (ft_now (fm_thread M k)) as [[[o new] c]|].
  - destruct c as [[[ms r]| |]|q c|q v c|ls c]; try discriminate E; try (injection E as <-; cbn [fm_thread]; now apply Q).
    destruct (grants _ _); [|discriminate E]. injection E as <-. cbn [fm_thread]. rewrite P. cbn [ft_count]. destruct (Nat.eqb_spec j k); [now subst|reflexivity].
  - destruct (ft_left (fm_thread M k)) as [|o rest]; [now injection E as <-|].
    destruct (program code m (ft_table (fm_thread M k)) o); injection E as <-; cbn [fm_thread]; now apply Q.
Qed.

Lemma turn_same : forall f g m (M : fmachine T St B) k, f k (ft_count (fm_thread M k)) = g k (ft_count (fm_thread M k)) ->
  turn f m M k = turn g m M k /\ next_request f k (fm_thread M k) = next_request g k (fm_thread M k).
Proof. intros f g m M k E. unfold FlatThreads.turn, next_request. rewrite E. auto. Qed.

Lemma ahead_turn : forall choose f g m (M M' : fmachine T St B) k, turn choose m M k = Goes M' -> ahead M f g -> ahead M' f g.
Proof.
  intros choose f g m M M' k E H j n L. apply H. rewrite (turn_counts _ _ _ _ _ E j) in L.
  destruct (next_request choose k (fm_thread M k)); [destruct (Nat.eqb j k)|]; lia.
Qed.
Lemma turns_same : forall f g m sched (M : fmachine T St B), ahead M f g ->
  turns f m M sched = turns g m M sched /\ given encode decode code f m M sched = given encode decode code g m M sched.
Proof.
  intros f g m sched. induction sched as [|k sched IH]; intros M H; cbn [FlatThreads.turns given]; auto.
  destruct (turn_same f g m M k (H k _ (le_n _))) as (E1 & E2). rewrite <- E1, <- E2. destruct (turn f m M k) as [| | |M'] eqn:S; auto.
  destruct (IH M' (ahead_turn _ _ _ _ _ _ _ S H)) as (E3 & E4). rewrite E3, E4. auto.
Qed.
Lemma ahead_turns : forall choose f g m sched (M M' : fmachine T St B), turns choose m M sched = Goes M' -> ahead M f g -> ahead M' f g.
Proof.
  intros choose f g m sched. induction sched as [|k sched IH]; intros M M' E H; cbn [FlatThreads.turns] in E; [now injection E as <-|].
  destruct (turn choose m M k) as [| | |M1] eqn:S; try discriminate E. eapply IH; eauto. eapply ahead_turn; eauto.
Qed.

Definition spread (base : N) (f : nat -> nat -> nat) : Prop := forall k n, exists j, N.of_nat (f k n) = base + j * item_size (T := T).

(** Where the memory ends after a turn. *)
Lemma turn_top : forall choose m (M M' : fmachine T St B) k base, turn choose m M k = Goes M' ->
  (forall b, In b (fm_used M) -> N.of_nat (fst b) + snd b * item_size (T := T) <= base) ->
  (forall b, next_request choose k (fm_thread M k) = Some b -> N.of_nat (fst b) = base) ->
  forall b, In b (fm_used M') -> N.of_nat (fst b) + snd b * item_size (T := T) <=
    base + items (match next_request choose k (fm_thread M k) with Some b => [b] | None => [] end) * item_size (T := T).
Proof.
  intros choose m M M' k base E H HN b I. unfold FlatThreads.turn in E. unfold next_request in *. cbv zeta in E.
  assert (LE : forall b x, In b (fm_used M) -> N.of_nat (fst b) + snd b * item_size (T := T) <= base + x) by (intros b0 x I0; specialize (H _ I0); lia).
  destruct (ft_now (fm_thread M k)) as [[[o new] c]|].
  - destruct c as [[[ms r]| |]|q c|q v c|ls c]; try discriminate E; try (injection E as <-; cbn [fm_used] in I; auto).
    + apply filter_In in I. now apply LE.
    + destruct (grants _ _); [|discriminate E]. injection E as <-. cbn [fm_used take y_blocks snd] in I. specialize (HN _ eq_refl). cbn [fst] in HN.
      destruct (N.of_nat (length ls) =? 0); [now apply LE|]. destruct I as [<-|I]; [|now apply LE]. cbn [fst snd items fold_right]. lia.
  - destruct (ft_left (fm_thread M k)) as [|o rest]; [injection E as <-; auto|].
    destruct (program code m (ft_table (fm_thread M k)) o); injection E as <-; cbn [fm_used] in I; auto.
Qed.

Lemma turns_bump : forall m sched (M : fmachine T St B) base, (forall b, In b (fm_used M) -> N.of_nat (fst b) + snd b * item_size (T := T) <= base) ->
  exists f, spread base f /\ (turns f m M sched = NoMemory ->
    exists s1 k s2 M1 b, sched = s1 ++ k :: s2 /\ turns f m M s1 = Goes M1 /\ next_request f k (fm_thread M1 k) = Some b /\
      usize_mod < base + (items (given encode decode code f m M s1) + snd b) * item_size (T := T)).
Proof.
  intros m sched. induction sched as [|k sched IH]; intros M base H.
  - exists (fun _ _ => N.to_nat base). split; [intros k n; exists 0; lia|]. discriminate.
  - set (f0 := fun (_ _ : nat) => N.to_nat base).
    destruct (turn f0 m M k) as [| | |M1] eqn:S.
    + exists f0. split; [intros k' n; exists 0; unfold f0; lia|]. cbn [FlatThreads.turns]. rewrite S. discriminate.
    + exists f0. split; [intros k' n; exists 0; unfold f0; lia|]. intros _. destruct (turn_no_memory _ _ _ _ S) as (b & Eb & G).
      exists [], k, sched, M, b. split; [reflexivity|]. split; [reflexivity|]. split; [exact Eb|]. cbn [given items fold_right].
      destruct (N.ltb_spec usize_mod (base + (0 + snd b) * item_size (T := T))) as [L|L]; auto. exfalso.
      assert (Fb : N.of_nat (fst b) = base). { unfold next_request in Eb. destruct (ft_now (fm_thread M k)) as [[[o new] [| | |ls c]]|]; try discriminate Eb. injection Eb as <-. unfold f0. cbn [fst]. lia. }
      rewrite <- Bool.not_true_iff_false in G. apply G. unfold grants. rewrite Fb. cbn [y_blocks].
      replace (base + snd b * item_size (T := T) <=? usize_mod) with true by (symmetry; apply N.leb_le; lia).
      apply Bool.orb_true_iff. right. cbn [andb]. apply forallb_forall. intros b' I. unfold blocks_apart. apply Bool.orb_true_iff. right. apply N.leb_le. rewrite Fb. now apply H.
    + exists f0. split; [intros k' n; exists 0; unfold f0; lia|]. cbn [FlatThreads.turns]. rewrite S. discriminate.
    + set (more := items (match next_request f0 k (fm_thread M k) with Some b => [b] | None => [] end)).
      destruct (IH M1 (base + more * item_size (T := T))) as (f & SF & F).
      { apply (turn_top f0 m M M1 k base S H). intros b Eb. unfold next_request in Eb. destruct (ft_now (fm_thread M k)) as [[[o new] [| | |ls c]]|]; try discriminate Eb. injection Eb as <-. unfold f0. cbn [fst]. lia. }
      set (g := fun j n => if Nat.eqb j k && Nat.eqb n (ft_count (fm_thread M k)) && match next_request f0 k (fm_thread M k) with Some _ => true | None => false end then N.to_nat base else f j n).
      assert (NG : match next_request f0 k (fm_thread M k) with Some _ => g k (ft_count (fm_thread M k)) = N.to_nat base | None => True end).
      { unfold g. destruct (next_request f0 k (fm_thread M k)); auto. now rewrite !Nat.eqb_refl. }
      assert (S1 : turn g m M k = Goes M1 /\ next_request g k (fm_thread M k) = next_request f0 k (fm_thread M k)).
      { unfold next_request in NG |- *. rewrite <- S. unfold FlatThreads.turn. destruct (ft_now (fm_thread M k)) as [[[o new] [| | |ls c]]|]; try (split; reflexivity).
        cbv zeta. rewrite NG. unfold f0. split; reflexivity. }
      assert (AH : ahead M1 f g).
      { intros j n L. unfold g. rewrite (turn_counts _ _ _ _ _ S j) in L. destruct (next_request f0 k (fm_thread M k)); [|now rewrite Bool.andb_false_r].
        destruct (Nat.eqb_spec j k); cbn [andb]; auto. subst j. destruct (Nat.eqb_spec n (ft_count (fm_thread M k))); [lia|reflexivity]. }
      exists g. split.
      { intros j n. unfold g. destruct (_ && _); [exists 0; lia|]. destruct (SF j n) as (i & Ei). exists (more + i). rewrite Ei. lia. }
      cbn [FlatThreads.turns]. rewrite (proj1 S1). rewrite <- (proj1 (turns_same f g m sched M1 AH)). intros E.
      destruct (F E) as (s1 & k1 & s2 & M2 & b & -> & R & Q & L). exists (k :: s1), k1, s2, M2, b. split; [reflexivity|].
      destruct (turns_same f g m s1 M1 AH) as (E1 & E2). pose proof (ahead_turns _ _ _ _ _ _ _ R AH) as AH2.
      split; [cbn [FlatThreads.turns]; rewrite (proj1 S1), <- E1; exact R|]. split; [rewrite <- (proj2 (turn_same f g m M2 k1 (AH2 _ _ (le_n _)))); exact Q|].
      cbn [given]. rewrite (proj1 S1), (proj2 S1), <- E2, items_app. fold more. lia.
Qed.

End Memory.

Section Theorems.
Context {T : Type} {SC : HScalar T} {St : Type} {B : Type}.
Variable encode : T -> list B.
Variable decode : list B -> T.

Lemma c75_refused : forall (code : gemm_args T -> prog T unit) choose m M (acts : list (faction T St)),
  process_run encode decode code choose m (begin_process M) acts = NoMemory ->
  exists b Y, asks encode decode code choose m (begin_process M) acts b Y /\ not_free b (y_blocks Y).
Proof. intros code choose m M acts E. exact (run_refused encode decode code choose m acts _ (proj1 (begin_tidy M)) E). Qed.

Lemma c75_granted : forall (code : gemm_args T -> prog T unit) choose m M (acts : list (faction T St)) x b Y,
  process_run encode decode code choose m (begin_process M) acts = Goes x ->
  asks encode decode code choose m (begin_process M) acts b Y -> ~ not_free b (y_blocks Y).
Proof. intros code choose m M acts x b Y E A. exact (run_granted encode decode code choose m acts _ b Y x E A). Qed.

Hypothesis coding : faithful encode decode.
Variable kern : kernel T.
Variable code : gemm_args T -> prog T unit.
Hypothesis impl : implements code kern.

Lemma c75_runs : forall m M (acts : list (faction T St)) fs rs, plain_products kern m finitial acts ->
  frun kern m finitial acts = Some (Ok (fs, rs)) ->
  exists choose, (forall n, exists k, 0 < k /\ N.of_nat (choose n) = k * item_size) /\
   ((exists place P, process_run encode decode code choose m (begin_process M) acts = Goes (P, rs) /\ holds decode place fs P) \/
    exists b Y, asks encode decode code choose m (begin_process M) acts b Y /\ usize_mod < (1 + items (y_log Y) + snd b) * item_size).
Proof.
  intros m M acts fs rs PP E. destruct (begin_tidy (T := T) M) as (HT & HB). destruct (run_bump encode decode code m acts _ HT HB) as (f & NF & F).
  exists f. split; [exact NF|]. destruct (c70_same encode decode coding f kern code impl m M acts fs rs PP E) as [X|X]; auto.
Qed.

Lemma c75_threads : forall m p (calls : nat -> list (call T St)) place M0 used0,
  laid_out decode p place M0 used0 -> in_memory p -> Threads.apart p ->
  (forall k, plain_history kern m (view p k) (calls k)) -> (forall k, exists x, run kern m (view p k) (calls k) = Ok x) ->
  forall base, (forall b, In b used0 -> N.of_nat (fst b) + snd b * item_size <= base) ->
  forall sched, let start := flaunch p place M0 used0 calls in
  exists choose, (forall k n, exists j, N.of_nat (choose k n) = base + j * item_size) /\
   ((exists M, turns encode decode code choose m start sched = Goes M) \/
    exists s1 k s2 M1 b, sched = s1 ++ k :: s2 /\ turns encode decode code choose m start s1 = Goes M1 /\
      next_request choose k (fm_thread M1 k) = Some b /\
      usize_mod < base + (items (given encode decode code choose m start s1) + snd b) * item_size).
Proof.
  intros m p calls place M0 used0 L I A PL D base HB sched start. destruct (turns_bump encode decode code m sched start base HB) as (f & SF & F).
  exists f. split; [exact SF|]. destruct (c74_defined encode decode coding kern code impl f m p calls place M0 used0 L I A PL D sched) as [X|X]; auto.
Qed.
End Theorems.
