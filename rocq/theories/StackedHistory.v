(** * The aliasing rules along a history. *)

From Coq Require Import ZifyBool ZifyNat ZifyN.
From Verif Require Import Machine MachineFacts Layouts Memory Matrix MatMul Spec MatrixSpec ExprSpec ProductSpec.
From Verif Require Import LayoutFacts MemoryFacts AccessFacts AccessProofs ConstructorProofs BlockProofs.
From Verif Require Import ExprProofs ProductProofs Program HistorySpec HistoryProofs HistorySafety Borrow BorrowFacts BorrowProofs.
From Verif Require Import AdmitProofs DeallocProofs.
From Verif Require Import Stacked StackedFacts StackedCell StackedNew StackedProofs.

Lemma admitted_ready : forall bt us bt', closed bt -> admit_uses bt us = Some bt' ->
  let L1 := fun x => is_live (fold_left use us bt) x = true in
  ready L1 bt us /\ no_conflict us = true /\ (forall x, L1 x -> is_live bt x = true) /\
  (forall x, is_live bt' x = true -> L1 x /\ ~ In (x, Moved) us) /\ (forall y, loans_of bt' y = loans_of bt y) /\
  length bt' = length bt.
Proof.
  intros bt us bt' C H. destruct (admit_spec bt us bt' C H) as ((Ll & Ln & _) & _). unfold admit_uses in H. cbv zeta in H.
  destruct (no_conflict us) eqn:Hn; [|discriminate]. cbn [andb] in H.
  destruct (forallb _ us) eqn:Hf; [|discriminate]. injection H as <-. rewrite forallb_forall in Hf.
  destruct (use_all_spec us bt C) as ((_ & N1 & _ & V1) & C1 & K1). destruct (end_all_spec us (fold_left use us bt)) as (_ & H').
  cbv zeta. splits; auto.
  - intros x a Hx. split; [apply (Hf _ Hx)|]. intros z Hz E. apply (calm_ends (fold_left use us bt) x a z); auto.
    eapply ends_mono; [|exact E]. intros y l. now rewrite N1.
  - intros x Hx. now apply H'.
Qed.

Section History.
Context {T : Type} {SC : HScalar T} {St : Type}.
Variable kern : kernel T.

Definition is_base (mats : list (matrix T)) (x : nat) : Prop := exists b, nth_error mats x = Some (MBase b).

Definition base_leaf (t : tag) (b : base_matrix) : leaf :=
  mkLeaf t (c_region (bm_data b)) (container_is_mut (bm_data b)) (owned_kind (c_kind (bm_data b))).

Record ghost (ts : tstate T) (es : list event) : Prop := {
  g_held : length (t_held ts) = length (st_mats (b_state (t_state ts)));
  g_slots : length (b_slots (t_state ts)) = length (st_mats (b_state (t_state ts)));
  g_loans : tinv (b_slots (t_state ts));
  g_base : forall x b, nth_error (st_mats (b_state (t_state ts))) x = Some (MBase b) ->
    exists t, leaves_of (t_held ts) x = [base_leaf t b];
  g_heap : forall x l q, holds (t_held ts) q x l -> (fst q < length (st_heap (b_state (t_state ts))))%nat;
  g_cells : forall q, exists s, cell_events q [] es = Some s /\
    cellinv (fun x => is_live (b_slots (t_state ts)) x = true) (is_base (st_mats (b_state (t_state ts))))
      (b_slots (t_state ts)) (t_held ts) (t_next ts) q s
}.

Lemma ghost_initial : ghost tinitial [].
Proof.
  constructor; cbn; auto.
  - apply tinv_initial.
  - intros x b H. destruct x; discriminate.
  - intros x l q [H _]. destruct x; destruct H.
  - intros q. exists []. split; auto. constructor; try (intros; destruct x; discriminate).
    + intros t p [].
    + constructor.
    + intros x l [H _]. destruct x; destruct H.
Qed.

(** The operands of products are base matrices. *)
Lemma base_operand : forall (st : state T) x b, lookup_base st x = Some b -> nth_error (st_mats st) x = Some (MBase b).
Proof. intros st x b H. apply lookup_base_inv in H. exact H. Qed.

Lemma matmul_operands : forall m st alpha a b beta c st' (r : result T St),
  step kern m st (CMatmul alpha a b beta c) = Ok (st', r) -> r <> RSkipped ->
  exists ba bb bc, lookup_base st a = Some ba /\ lookup_base st b = Some bb /\ lookup_mut st c = Some bc.
Proof.
  intros m st alpha a b beta c st' r H Hn. unfold step in H. cbn [exec] in H. unfold typed in H.
  destruct (lookup_base st a) as [ba|] eqn:Ea; [|injection H as _ <-; now elim Hn].
  destruct (lookup_base st b) as [bb|] eqn:Eb; [|injection H as _ <-; now elim Hn].
  destruct (lookup_mut st c) as [bc|] eqn:Ec; [|injection H as _ <-; now elim Hn]. eauto 6.
Qed.

Lemma dot_operands : forall m st shape a b st' (r : result T St),
  step kern m st (CDot shape a b) = Ok (st', r) -> r <> RSkipped ->
  exists ba bb, lookup_base st a = Some ba /\ lookup_base st b = Some bb.
Proof.
  intros m st shape a b st' r H Hn. unfold step in H. cbn [exec] in H. unfold typed in H.
  destruct (lookup_base st a) as [ba|] eqn:Ea; [|injection H as _ <-; now elim Hn].
  destruct (lookup_base st b) as [bb|] eqn:Eb; [|injection H as _ <-; now elim Hn]. eauto 6.
Qed.

Section Step.
Variables (ts : tstate T) (es : list event).
Hypothesis G : ghost ts es.
Notation bs := (t_state ts).
Notation st := (b_state bs).
Notation bt := (b_slots bs).
Notation held := (t_held ts).
Notation n := (t_next ts).
Notation B := (is_base (st_mats st)).

(** Calls that return no matrix. *)
Lemma cells_same : forall eager m (o : call T St) st' r bt', admit_uses bt (uses o) = Some bt' ->
  step kern m st o = Ok (st', r) -> r <> RNew ->
  let '(es', new, k) := action_events eager held n st st' (Do o) r in new = [] /\
  forall q s, cellinv (fun x => is_live bt x = true) B bt held n q s ->
  exists s', cell_events q s es' = Some s' /\ cellinv (fun x => is_live bt' x = true) B bt' held (n + k) q s'.
Proof.
  intros eager m o st' r bt' A H Hr. destruct (g_loans _ _ G) as [C Od].
  destruct (admitted_ready _ _ _ C A) as (R & Nc & V1 & V2 & Ln & _). set (L1 := fun x => is_live (fold_left use (uses o) bt) x = true) in *.
  assert (Done : forall (L : nat -> Prop) k q s, cellinv L B bt held (n + k) q s -> (forall x, L1 x -> ~ In (x, Moved) (uses o) -> L x) ->
     cellinv (fun x => is_live bt' x = true) B bt' held (n + k) q s).
  { intros L k q s I HL. eapply ci_weaken; eauto.
    - intros x Hx. apply V2 in Hx. apply HL; tauto.
    - intros y l. now rewrite Ln. }
  assert (Late : r <> RSkipped -> r <> RPanicked ->
     let '(es', new, k) := (let '(es1, k) := late_events held n o in (flat_map (use_events eager o held) (uses o) ++ es1, @nil (list leaf), k)) in
     new = [] /\ forall q s, cellinv (fun x => is_live bt x = true) B bt held n q s ->
     exists s', cell_events q s es' = Some s' /\ cellinv (fun x => is_live bt' x = true) B bt' held (n + k) q s').
  { intros H1 H2. destruct (late_events held n o) as [es1 k] eqn:El. split; auto. intros q s I.
    assert (I1 : cellinv L1 B bt held n q s) by (eapply ci_weaken; eauto).
    destruct (reached_ok L1 B bt held n q (uses o) eager o (uses o) R (incl_refl _) s I1) as (s1 & E1 & J1).
    rewrite cell_events_app, E1.
    assert (X : (es1 = [] /\ k = O) \/ exists alpha a b beta c, o = CMatmul alpha a b beta c /\
       es1 = product_events held n a b ++ raw_events true held c (n + 2)%nat ++ product_reads held n a b ++ raw_uses true held c (n + 2)%nat /\ k = 3%nat).
    { destruct o; cbn in El; injection El as <- <-; auto. right. repeat eexists. }
    destruct X as [[-> ->]|(alpha & a & b & beta & c & -> & -> & ->)].
    - exists s1. split; auto. apply (Done L1); auto. now rewrite Nat.add_0_r.
    - destruct (matmul_operands _ _ _ _ _ _ _ _ _ H H1) as (ba & bb & bc & Ea & Eb & Ec).
      apply base_operand in Ea, Eb. pose proof (lookup_mut_writable _ _ _ Ec) as [Ec' Hw].
      destruct (g_base _ _ G _ _ Ea) as [ta La]. destruct (g_base _ _ G _ _ Eb) as [tb Lb]. destruct (g_base _ _ G _ _ Ec') as [tc Lc].
      cbn [uses no_conflict forallb fst snd shared_use andb orb] in Nc.
      destruct (matmul_events_ok L1 B bt held n q s1 [(a, Shared); (b, Shared); (c, Exclusive)] a b c (base_leaf ta ba) (base_leaf tb bb) (base_leaf tc bc))
        as (s' & E' & I'); auto; cbn [In]; auto; try (eexists; eassumption).
      + intros ->. rewrite Nat.eqb_refl in Nc. cbn in Nc. destruct (Nat.eqb c b); discriminate Nc.
      + intros ->. rewrite Nat.eqb_refl in Nc. cbn in Nc. destruct (Nat.eqb a c); discriminate Nc.
      + unfold strong, base_leaf. cbn [l_write]. cbn [is_writable] in Hw. now rewrite Hw.
      + rewrite E'. exists s'. split; auto. now apply (Done L1). }
  cbn [action_events].
  destruct r; try (apply Late; discriminate); [| |now elim Hr].
  - split; auto. intros q s I. exists s. split; auto. apply (Done L1); auto. rewrite Nat.add_0_r. eapply ci_weaken; eauto.
  - split; auto. intros q s I. assert (I1 : cellinv L1 B bt held n q s) by (eapply ci_weaken; eauto).
    destruct (reached_ok L1 B bt held n q (uses o) eager o (uses o) R (incl_refl _) s I1) as (s1 & E1 & J1).
    rewrite cell_events_app, E1.
    destruct (drops_ok (uses o) (uses o) B bt held n q Od L1 s1 J1 R (incl_refl _) Nc) as (s2 & E2 & J2).
    exists s2. split; auto. eapply (Done _ O); [rewrite Nat.add_0_r; exact J2|]. intros x H1 H2. split; auto.
Qed.

Lemma cells_drop : forall x bt', admit_uses bt [(x, Moved)] = Some bt' ->
  forall q s, cellinv (fun x => is_live bt x = true) B bt held n q s ->
  exists s', cell_events q s (drop_events held x) = Some s' /\ cellinv (fun x => is_live bt' x = true) B bt' held n q s'.
Proof.
  intros x bt' A q s I. destruct (g_loans _ _ G) as [C Od].
  destruct (admitted_ready _ _ _ C A) as (R & Nc & V1 & V2 & Ln & _). set (L1 := fun x0 => is_live (fold_left use [(x, Moved)] bt) x0 = true) in *.
  assert (I1 : cellinv L1 B bt held n q s) by (eapply ci_weaken; eauto).
  destruct (drop_ok L1 B bt held n q s [(x, Moved)] x Moved) as (s' & E & J); auto; [now left|discriminate|].
  exists s'. split; auto. eapply ci_weaken; eauto.
  - intros z Hz. apply V2 in Hz. destruct Hz as [H1 H2]. split; auto. intros ->. apply H2. now left.
  - intros y l. now rewrite Ln.
Qed.

(** *** New matrices *)

Section New.
Variables (m : mode) (o : call T St) (st' : state T) (bt' : list slot) (eager : bool).
Hypothesis A : admit_uses bt (uses o) = Some bt'.
Notation L1 := (fun x => is_live (fold_left use (uses o) bt) x = true).
Notation bt2 := (bt' ++ returned bt o).
Notation L2 := (fun x => is_live bt2 x = true).

Lemma new_ready : ready L1 bt (uses o) /\ no_conflict (uses o) = true /\ (forall x, L1 x -> is_live bt x = true) /\
  (forall x, L1 x -> (x < length held)%nat) /\
  (forall x, (x < length held)%nat -> L2 x -> L1 x) /\ (forall x, (x < length held)%nat -> L2 x -> ~ In (x, Moved) (uses o)) /\
  (forall y l, In l (loans_of bt y) -> In l (loans_of bt2 y)) /\
  (forall x l, (x < length held)%nat -> In l (loans_of bt2 x) -> In l (loans_of bt x)) /\
  (forall k, loans_of bt2 (length held + k) = loans_of (returned bt o) k).
Proof.
  destruct (g_loans _ _ G) as [C Od]. destruct (admitted_ready _ _ _ C A) as (R & Nc & V1 & V2 & Ln & Ll).
  pose proof (g_held _ _ G) as E1. pose proof (g_slots _ _ G) as E2.
  assert (El : length bt' = length held) by congruence. splits; auto.
  - intros x Hx. apply V1, is_live_bound in Hx. lia.
  - intros x Hx H. rewrite live_app_old in H by lia. now apply V2.
  - intros x Hx H. rewrite live_app_old in H by lia. now apply V2.
  - intros y l H. pose proof (loans_bound _ _ _ H). rewrite loans_app_old by lia. now rewrite Ln.
  - intros x l Hx H. rewrite loans_app_old in H by lia. now rewrite Ln in H.
  - intros k. rewrite <- El. apply loans_app_new.
Qed.

Lemma base_old : forall mats' new, mats' = st_mats st ++ new -> forall x, (x < length held)%nat -> is_base mats' x -> B x.
Proof.
  intros mats' new -> x Hx [b H]. rewrite (g_held _ _ G) in Hx. rewrite nth_error_app1 in H by auto. exists b. exact H.
Qed.

(** Views. *)
Lemma cells_view : forall mut x b t (vs : list (matrix T)), uses o = [(x, mut_access mut)] ->
  lookup_block st mut x = Some b -> leaves_of held x = [base_leaf t b] -> st_mats st' = st_mats st ++ vs ->
  returned bt o = repeat (mkSlot true [(x, mut)] (part (nth 0 (returned bt o) (mkSlot true [] false)))) (length vs) ->
  (forall v, In v vs -> within (region_of v) (c_region (bm_data b))) ->
  ForallOrdPairs (fun v w => ~ overlap v w) vs ->
  forall q s, cellinv L1 B bt held n q s ->
  exists s', cell_events q s (raw_events mut held x n ++ parts_events mut n (S n) vs) = Some s' /\
    cellinv L2 (is_base (st_mats st')) bt2 (held ++ parts_leaves mut (S n) vs) (n + S (length vs)) q s'.
Proof.
  intros mut x b t vs Hus Hb Hl Em Hret Hin Hap q s I.
  destruct new_ready as (R & Nc & V1 & Bd & Old & NM & Lo & OL & NL).
  pose proof (base_old _ _ Em) as OB. apply lookup_block_cases in Hb. destruct Hb as [Hb Hw].
  assert (New : forall y k, (length held <= y)%nat -> holds (held ++ parts_leaves mut (S n) vs) q y k ->
     exists v, nth_error vs (y - length held) = Some v /\ k = mkLeaf (S n + (y - length held)) (region_of v) mut false /\ covers (region_of v) q = true).
  { intros y k Hy [H1 H2]. replace y with (length held + (y - length held))%nat in H1 by lia. rewrite leaves_new in H1.
    apply parts_leaves_nth in H1. destruct H1 as (v & Hv & ->). exists v. splits; auto. }
  assert (Nothing : (forall v, In v vs -> covers (region_of v) q = false) -> forall n' s, cellinv L1 B bt held n' q s ->
     (n' <= n + S (length vs))%nat ->
     cellinv L2 (is_base (st_mats st')) bt2 (held ++ parts_leaves mut (S n) vs) (n + S (length vs)) q s).
  { intros Hno n' s0 I0 Hn. eapply ci_later_tag; [|exact Hn].
    apply (ci_none L1 L2 B (is_base (st_mats st')) bt bt2 held (parts_leaves mut (S n) vs) q Old OB Lo n' s0 I0).
    intros y k Hy H. destruct (New y k Hy H) as (v & Hv & _ & Hc). apply nth_error_In in Hv. rewrite Hno in Hc by auto. discriminate. }
  rewrite cell_events_app. unfold raw_events. rewrite Hl. cbn [map cell_events cell_event base_leaf l_region l_tag].
  destruct (covers (c_region (bm_data b)) q) eqn:Cx.
  2:{ assert (Hno : forall v, In v vs -> covers (region_of v) q = false).
      { intros v Hv. destruct (covers (region_of v) q) eqn:E; auto. apply (within_covers _ (c_region (bm_data b))) in E; auto. congruence. }
      rewrite parts_none by auto. exists s. split; auto. apply (Nothing Hno n); auto. lia. }
  assert (Hx : holds held q x (base_leaf t b)) by (split; [rewrite Hl; now left|exact Cx]).
  assert (Hst : mut = true -> strong (base_leaf t b) = true).
  { intros E. apply Hw in E. unfold strong, base_leaf. cbn [l_write is_writable] in *. now rewrite E. }
  assert (Hu : In (x, mut_access mut) (uses o)) by (rewrite Hus; now left).
  destruct (ci_access L1 B bt held n q s (uses o) x (mut_access mut) mut (base_leaf t b)) as (s1 & p & E & I1 & _); auto.
  { intros Em'. split; auto. now rewrite Em'. }
  replace (may_write (raw_permission mut)) with mut by now destruct mut. cbn [base_leaf l_tag] in E. rewrite E. cbn [option_map].
  assert (J : cellinv L1 B bt held (S n) q ((n, raw_permission mut) :: s1)) by (eapply ci_push; eauto).
  assert (Dec : (exists i v, nth_error vs i = Some v /\ covers (region_of v) q = true) \/ forall v, In v vs -> covers (region_of v) q = false).
  { clear. induction vs as [|v vs IH]; [right; intros v []|]. destruct (covers (region_of v) q) eqn:E.
    - left. exists O, v. auto.
    - destruct IH as [(i & w & Hi & Hc)|IH]; [left; exists (S i), w; auto|right; intros w [<-|Hw]; auto]. }
  destruct Dec as [(i & v & Hi & Hc)|Hno].
  2:{ rewrite parts_none by auto. eexists. split; [reflexivity|]. apply (Nothing Hno (S n)); auto. lia. }
  assert (Only : forall j w, nth_error vs j = Some w -> covers (region_of w) q = true -> j = i).
  { revert Hap i Hi Hc. clear. intros Hap. induction Hap as [|a vs Ha Hap IH]; intros i Hi Hc j w Hj Hw; [destruct i; discriminate|].
    rewrite Forall_forall in Ha. destruct i as [|i], j as [|j]; cbn in Hi, Hj; auto.
    - injection Hi as ->. apply nth_error_In in Hj. elim (Ha w Hj). exists q. auto.
    - injection Hj as ->. apply nth_error_In in Hi. elim (Ha v Hi). exists q. auto.
    - f_equal. eapply IH; eauto. }
  rewrite (parts_one q mut n (raw_permission mut) s1 vs (S n) i v); auto; [|intros ->; reflexivity].
  eexists. split; [reflexivity|].
  assert (Hi' : (i < length vs)%nat) by (apply nth_error_Some; congruence).
  apply (ci_later_tag _ _ _ _ (S (S n + i))); [|lia].
  eapply (ci_view L1 L2 B (is_base (st_mats st')) bt bt2 held (parts_leaves mut (S n) vs) q Old OB Lo (uses o) R Bd OL)
    with (n := S n) (x := x) (l := base_leaf t b) (y0 := (length held + i)%nat) (k0 := mkLeaf (S n + i) (region_of v) mut false); auto.
  - exists b. exact Hb.
  - lia.
  - lia.
  - unfold strong. cbn. now rewrite orb_false_r.
  - rewrite NL, Hret. unfold loans_of. rewrite nth_error_repeat by auto. now left.
  - intros y k Hy H. destruct (New y k Hy H) as (w & Hw' & -> & Hcw). specialize (Only _ _ Hw' Hcw). subst i.
    assert (w = v) by congruence. subst w. split; [lia|reflexivity].
  - intros y Hy. replace y with (length held + (y - length held))%nat by lia. rewrite leaves_new. apply parts_not_owned.
Qed.

(** Fresh allocations. *)
Lemma cells_fresh : forall b n', st_mats st' = st_mats st ++ [MBase b] -> allocation b = length (st_heap st) ->
  (n <= n')%nat -> forall q s, cellinv L1 B bt held n' q s ->
  exists s', cell_events q s [Allocate n' (c_region (bm_data b))] = Some s' /\
    cellinv L2 (is_base (st_mats st')) bt2 (held ++ [[mkLeaf n' (c_region (bm_data b)) true true]]) (S n') q s'.
Proof.
  intros b n' Em Ha Hn q s I. destruct new_ready as (R & Nc & V1 & Bd & Old & NM & Lo & OL & NL).
  pose proof (base_old _ _ Em) as OB. cbn [cell_events cell_event]. destruct (covers (c_region (bm_data b)) q) eqn:E.
  - eexists. split; [reflexivity|].
    eapply (ci_fresh L1 L2 B (is_base (st_mats st')) bt bt2 held [[mkLeaf n' (c_region (bm_data b)) true true]] q Old) with (k := mkLeaf n' (c_region (bm_data b)) true true); eauto.
    intros x l _ H. apply (g_heap _ _ G) in H. unfold covers in E. unfold allocation in Ha. lia.
  - eexists. split; [reflexivity|]. eapply ci_later_tag; [|apply Nat.le_succ_diag_r].
    
    apply (ci_none L1 L2 B (is_base (st_mats st')) bt bt2 held [[mkLeaf n' (c_region (bm_data b)) true true]] q Old OB Lo n' s I). intros y k Hy [H1 H2]. replace y with (length held + (y - length held))%nat in H1 by lia.
    rewrite leaves_new in H1. destruct (y - length held)%nat as [|[|]]; cbn in H1; [|destruct H1..].
    destruct H1 as [<-|[]]. cbn in H2. congruence.
Qed.

(** Matrices that reach memory as their operands do. *)
Lemma cells_derived : forall v ks, st_mats st' = st_mats st ++ [v] -> (forall b, v <> MBase b) ->
  returned bt o = [borrowing bt (uses o)] ->
  forall q s, cellinv L1 B bt held n q s ->
  (forall k, In k ks -> covers (l_region k) q = true -> exists x a l, In (x, a) (uses o) /\ holds held q x l /\
     l_tag k = l_tag l /\ (strong k = true -> strong l = true /\ a <> Shared) /\
     (l_owned k = true -> l_owned l = true /\ a = Moved)) ->
  (length (filter (owned_at q) ks) <= 1)%nat ->
  cellinv L2 (is_base (st_mats st')) bt2 (held ++ [ks]) n q s.
Proof.
  intros v ks Em Hv Hret q s I Hks H1. destruct new_ready as (R & Nc & V1 & Bd & Old & NM & Lo & OL & NL).
  pose proof (base_old _ _ Em) as OB.
  eapply (ci_derive L1 L2 B (is_base (st_mats st')) bt bt2 held [ks] q Old OB Lo (uses o) R Bd OL NM); eauto.
  - intros u Hu l Hl. replace (length held) with (length held + 0)%nat by lia. rewrite NL, Hret. cbn.
    apply in_flat_map. eauto.
  - intros [b Hb]. rewrite Em, (g_held _ _ G), nth_error_app2, Nat.sub_diag in Hb by auto. cbn in Hb. injection Hb as ->. now apply (Hv b).
Qed.

(** What the new matrices of a call reach. *)
Definition new_ok (new : list (list leaf)) : Prop :=
  length (st_mats st') = (length (st_mats st) + length new)%nat /\
  (forall i b, nth_error (st_mats st') (length (st_mats st) + i) = Some (MBase b) -> exists t, leaves_of new i = [base_leaf t b]) /\
  (forall i l q, In l (leaves_of new i) -> covers (l_region l) q = true -> (fst q < length (st_heap st'))%nat).

Lemma fresh_calls : forall bt0 b, no_pointers (Do o) -> (forall bt, returned bt o = [mkSlot true [] false]) ->
  (exists shape x y, o = CDot shape x y) \/
  new_events bt0 n o [MBase b] = ([Allocate n (c_region (bm_data b))], [[mkLeaf n (c_region (bm_data b)) true true]], 1%nat).
Proof.
  intros bt0 b Np H.
  assert (X : forall us, (forall bt, [borrowing bt us] = [mkSlot true [] false]) -> us = []).
  { intros [|[x a] us] H'; auto. remember (repeat (mkSlot true [(O, true)] false) (S x)) as bt1 eqn:E1.
    assert (E : loans_of bt1 x = [(O, true)]) by (unfold loans_of; subst bt1; rewrite nth_error_repeat by lia; reflexivity).
    specialize (H' bt1). unfold borrowing in H'. cbn [flat_map] in H'. injection H' as H' _.
    apply app_eq_nil in H'. destruct H' as [H' _]. destruct a; try discriminate. cbn [lent snd fst] in H'. congruence. }
  destruct o; try (right; reflexivity); try (now destruct Np); try (left; repeat eexists; fail);
    try (specialize (H []); discriminate H); try (apply X in H; discriminate H).
Qed.

Definition step_ok (new : list (list leaf)) (k : nat) (es1 : list event) : Prop := new_ok new /\
  forall q s, cellinv (fun x => is_live bt x = true) B bt held n q s ->
  exists s', cell_events q s (flat_map (use_events eager o held) (uses o) ++ es1) = Some s' /\
    cellinv L2 (is_base (st_mats st')) bt2 (held ++ new) (n + k) q s'.

Lemma step_of : forall new k es1, new_ok new -> (forall q s, cellinv L1 B bt held n q s ->
  exists s', cell_events q s es1 = Some s' /\ cellinv L2 (is_base (st_mats st')) bt2 (held ++ new) (n + k) q s') ->
  step_ok new k es1.
Proof.
  intros new k es1 Hn H. split; auto. intros q s I. destruct new_ready as (R & Nc & V1 & _).
  assert (I1 : cellinv L1 B bt held n q s) by (eapply ci_weaken; eauto).
  destruct (reached_ok L1 B bt held n q (uses o) eager o (uses o) R (incl_refl _) s I1) as (s1 & E1 & J1).
  rewrite cell_events_app, E1. now apply H.
Qed.

Lemma parts_leaves_at : forall mut (vs : list (matrix T)) t i v, nth_error vs i = Some v ->
  leaves_of (parts_leaves mut t vs) i = [mkLeaf (t + i) (region_of v) mut false].
Proof.
  intros mut vs. induction vs as [|w vs IH]; intros t [|i] v H; cbn in H; try discriminate.
  - injection H as ->. cbn. now rewrite Nat.add_0_r.
  - cbn [parts_leaves]. unfold leaves_of in *. cbn [nth]. rewrite (IH (S t) i v H). do 2 f_equal. lia.
Qed.

Lemma step_view : forall mut x b (vs : list (matrix T)), uses o = [(x, mut_access mut)] ->
  lookup_block st mut x = Some b -> st_mats st' = st_mats st ++ vs -> st_heap st' = st_heap st ->
  returned bt o = repeat (mkSlot true [(x, mut)] (part (nth 0 (returned bt o) (mkSlot true [] false)))) (length vs) ->
  (forall v, In v vs -> exists b', v = MBase b' /\ within (c_region (bm_data b')) (c_region (bm_data b)) /\
     container_is_mut (bm_data b') = mut /\ (c_kind (bm_data b') = SliceContainer \/ c_kind (bm_data b') = SliceContainerMut)) ->
  ForallOrdPairs (fun v w => ~ overlap v w) vs ->
  step_ok (parts_leaves mut (S n) vs) (S (length vs)) (raw_events mut held x n ++ parts_events mut n (S n) vs).
Proof.
  intros mut x b vs Hus Hb Em Eh Hret Hin Hap. pose proof (lookup_block_cases _ _ _ _ Hb) as [Hb' _].
  destruct (g_base _ _ G _ _ Hb') as [t Hl].
  assert (Hw : forall v, In v vs -> within (region_of v) (c_region (bm_data b))).
  { intros v Hv. destruct (Hin v Hv) as (b' & -> & H & _). exact H. }
  apply step_of.
  - unfold new_ok; splits.
    + rewrite Em, app_length, parts_leaves_length. reflexivity.
    + intros i b' H. rewrite Em, nth_error_app2 in H by lia. replace (_ + i - _)%nat with i in H by lia.
      exists (S n + i)%nat. rewrite (parts_leaves_at _ _ _ _ _ H). destruct (Hin _ (nth_error_In _ _ H)) as (b1 & E & _ & Hm & Hk).
      injection E as <-. unfold base_leaf. cbn [region_of]. rewrite Hm. destruct Hk as [-> | ->]; reflexivity.
    + intros i l q H Hc. apply parts_leaves_nth in H. destruct H as (v & Hv & ->). cbn [l_region] in Hc. apply nth_error_In in Hv.
      rewrite Eh. apply (g_heap _ _ G x (base_leaf t b)). split; [rewrite Hl; now left|]. cbn [base_leaf l_region].
      eapply within_covers; eauto.
  - intros q s I. eapply cells_view; eauto.
Qed.

Lemma step_derived : forall v ks, st_mats st' = st_mats st ++ [v] -> st_heap st' = st_heap st -> (forall b, v <> MBase b) ->
  returned bt o = [borrowing bt (uses o)] ->
  (forall k, In k ks -> exists x a l, In (x, a) (uses o) /\ In l (leaves_of held x) /\ l_region k = l_region l /\
     l_tag k = l_tag l /\ (strong k = true -> strong l = true /\ a <> Shared) /\
     (l_owned k = true -> l_owned l = true /\ a = Moved)) ->
  (forall q s, cellinv L1 B bt held n q s -> (length (filter (owned_at q) ks) <= 1)%nat) ->
  step_ok [ks] O [].
Proof.
  intros v ks Em Eh Hv Hret Hks H1. apply step_of.
  - unfold new_ok; splits.
    + rewrite Em, app_length. reflexivity.
    + intros i b H. rewrite Em, nth_error_app2 in H by lia. replace (_ + i - _)%nat with i in H by lia.
      destruct i as [|[|i]]; cbn in H; try discriminate. injection H as ->. now elim (Hv b).
    + intros i l q H Hc. destruct i as [|[|i]]; cbn in H; [|destruct H..]. destruct (Hks l H) as (x & a & l' & _ & Hl & Er & _).
      rewrite Eh. apply (g_heap _ _ G x l'). split; auto. now rewrite <- Er.
  - intros q s I. exists s. split; [reflexivity|]. rewrite Nat.add_0_r. eapply cells_derived; eauto.
    intros k Hk Hc. destruct (Hks k Hk) as (x & a & l & Ha & Hl & Er & Et & H2 & H3). exists x, a, l. splits; auto.
    split; auto. now rewrite <- Er.
Qed.

Lemma passed_leaf : forall p x k, In k (map (pass_leaf p) (leaves_of held x)) -> exists l, In l (leaves_of held x) /\
  l_region k = l_region l /\ l_tag k = l_tag l /\ (strong k = true -> strong l = true /\ passed_access p <> Shared) /\
  (l_owned k = true -> l_owned l = true /\ passed_access p = Moved).
Proof.
  intros p x k H. apply in_map_iff in H. destruct H as (l & <- & H). exists l. unfold strong. destruct p; cbn; splits; auto; try discriminate.
  intros E. rewrite E, orb_true_r. split; auto. discriminate.
Qed.

Lemma passed_once : forall p x q s, cellinv L1 B bt held n q s -> L1 x ->
  (length (filter (owned_at q) (map (pass_leaf p) (leaves_of held x))) <= 1)%nat /\
  (filter (owned_at q) (map (pass_leaf p) (leaves_of held x)) = [] \/
   passed_access p = Moved /\ exists l, holds held q x l /\ l_owned l = true).
Proof.
  intros p x q s I Lx. pose proof (ci_once _ _ _ _ _ _ _ I x Lx) as H1. unfold holds. revert H1. generalize (leaves_of held x) as ls.
  intros ls H1. destruct p.
  - assert (E : length (filter (owned_at q) (map (pass_leaf ByValue) ls)) = length (filter (owned_at q) ls)).
    { clear. induction ls as [|l ls IH]; auto. cbn [map filter]. replace (owned_at q (pass_leaf ByValue l)) with (owned_at q l) by reflexivity.
      destruct (owned_at q l); cbn [length]; congruence. }
    split; [now rewrite E|]. destruct (filter (owned_at q) ls) as [|l0 r] eqn:F.
    + left. now apply length_zero_iff_nil in E.
    + right. split; auto. exists l0. assert (H : In l0 (filter (owned_at q) ls)) by (rewrite F; now left).
      apply filter_In in H. destruct H as [H2 H3]. unfold owned_at in H3. apply andb_true_iff in H3. tauto.
  - assert (E : filter (owned_at q) (map (pass_leaf ByReference) ls) = []) by (clear; induction ls; cbn; auto). rewrite E. cbn. auto.
Qed.

End New.

Lemma step_new : forall m (o : call T St) st' bt' eager, admit_uses bt (uses o) = Some bt' -> no_pointers (Do o) -> step kern m st o = Ok (st', RNew) -> apart_split m st (Do o) ->
  let '(es', new, k) := action_events eager held n st st' (Do o) RNew in new_ok st' new /\
  forall q s, cellinv (fun x => is_live bt x = true) B bt held n q s ->
  exists s', cell_events q s es' = Some s' /\ cellinv (fun x => is_live (bt' ++ returned bt o) x = true) (is_base (st_mats st'))
    (bt' ++ returned bt o) (held ++ new) (n + k) q s'.
Proof.
  intros m o st' bt' eager A Np H Ap. cbn [action_events].
  assert (X : let '(es1, new, k) := new_events held n o (skipn (length (st_mats st)) (st_mats st')) in step_ok o st' bt' eager new k es1).
  2:{ destruct (new_events _ _ _ _) as [[es1 new] k]. exact X. }
  pose proof (step_kinds _ _ _ _ _ _ Np H) as K.
  assert (Sk : forall vs, st_mats st' = st_mats st ++ vs -> skipn (length (st_mats st)) (st_mats st') = vs).
  { intros vs ->. now rewrite skipn_app, skipn_all, Nat.sub_diag. }
  inversion K as [r Hr | b Em Ha Hl Hc Hret | v Em Eh Hret Hd | x at_ b b0 b1 b2 b3 Eo Hx _ Hs Eh Em]; [congruence| | |]; rewrite (Sk _ Em).
  - assert (Nw : forall t, new_ok st' [[mkLeaf t (c_region (bm_data b)) true true]]).
    { intros t. unfold new_ok; splits.
      - rewrite Em, app_length. reflexivity.
      - intros i b' Hi. rewrite Em, nth_error_app2 in Hi by lia. replace (_ + i - _)%nat with i in Hi by lia.
        destruct i as [|[|i]]; cbn in Hi; try discriminate. injection Hi as <-. exists t. unfold base_leaf, container_is_mut.
        unfold owned_container in Hc. destruct (c_kind (bm_data b)); destruct Hc; reflexivity.
      - intros i l q Hi Hcv. destruct i as [|[|i]]; cbn in Hi; [|destruct Hi..]. destruct Hi as [<-|[]]. cbn [l_region] in Hcv.
        unfold covers in Hcv. unfold allocation in Ha. lia. }
    destruct (fresh_calls o bt' A held b Np Hret) as [(shape & x & y & Eo)|E].
    + assert (Hd : exists ba bb, lookup_base st x = Some ba /\ lookup_base st y = Some bb).
      { rewrite Eo in H. eapply dot_operands; [exact H|discriminate]. }
      destruct Hd as (ba & bb & Ea & Eb). apply base_operand in Ea, Eb.
      destruct (g_base _ _ G _ _ Ea) as [ta La]. destruct (g_base _ _ G _ _ Eb) as [tb Lb].
      replace (new_events held n o [MBase b]) with (new_events held n (@CDot T St shape x y) [MBase b]) by now rewrite Eo.
      cbn [new_events map fst snd region_of]. apply (step_of o st' bt' eager A); auto. intros q s I.
      destruct (new_ready o bt' A) as (R & _).
      destruct (product_ok (fun x => is_live (fold_left use (uses o) bt) x = true) B bt held n q s (uses o) x y (base_leaf ta ba) (base_leaf tb bb)) as (s1 & E1 & I1); auto;
        [rewrite Eo; cbn; auto|rewrite Eo; cbn; auto|].
      rewrite app_assoc, cell_events_app, E1.
      destruct (cells_fresh o st' bt' A b (n + 2)%nat Em Ha) with (q := q) (s := s1) as (s2 & E2 & I2); auto; [lia|].
      exists s2. split; auto. eapply ci_later_tag; [exact I2|lia].
    + rewrite E. apply (step_of o st' bt' eager A); auto. intros q s I. destruct (cells_fresh o st' bt' A b n Em Ha (Nat.le_refl _) q s I) as (s2 & E2 & I2).
      exists s2. split; auto. eapply ci_later_tag; [exact I2|lia].
  - specialize (Hret bt).
    assert (Od : ordered bt) by (destruct (g_loans _ _ G); auto).
    destruct (new_ready o bt' A) as (R & Nc & _).
    destruct Hd as
    [mut x first last rs cs l b rg v E Er Ev | mut x tl d b v E Ev | x y E | x y E | c p x y E | c p x y E
    | p p' x y u v l E1 E2]; cbn [new_events].
    + eapply (step_view _ st' bt' eager A mut x b [MBase v]); auto.
      * rewrite Hret. cbn. unfold borrowing. cbn. now destruct mut.
      * intros w [<-|[]]. exists v. apply from_data_data in Ev. subst v. cbn [bm_data]. splits; auto.
        -- rewrite slice_container_region. eapply slice_within; eauto.
        -- apply slice_container_mut_is.
        -- apply slice_container_kind.
      * repeat constructor.
    + eapply (step_view _ st' bt' eager A mut x b [MBase v]); auto.
      * rewrite Hret. cbn. unfold borrowing. cbn. now destruct mut.
      * intros w [<-|[]]. exists v. pose proof (block_within _ _ _ _ _ _ Ev) as [W1 W2]. splits; auto. eapply block_kind; eauto.
      * repeat constructor.
    + eapply (step_derived _ st' bt' eager A); eauto; [discriminate| |].
      * intros k Hk. apply in_map_iff in Hk. destruct Hk as (l & <- & Hl). exists x, Shared, l. unfold strong. cbn. splits; auto; discriminate.
      * intros q s I. replace (filter _ _) with (@nil leaf); [auto|]. generalize (leaves_of held x). induction l; cbn; auto.
    + eapply (step_derived _ st' bt' eager A); eauto; [discriminate| |].
      * intros k Hk. apply in_map_iff in Hk. destruct Hk as (l & <- & Hl). exists x, Exclusive, l. unfold strong. cbn. splits; auto; try discriminate.
        rewrite orb_false_r. intros ->. split; [reflexivity|discriminate].
      * intros q s I. replace (filter _ _) with (@nil leaf); [auto|]. generalize (leaves_of held x). induction l; cbn; auto.
    + eapply (step_derived _ st' bt' eager A); eauto; [discriminate| |].
      * intros k Hk. apply passed_leaf in Hk. destruct Hk as (l & Hk). exists x, (passed_access p), l. cbn. tauto.
      * intros q s I. apply (passed_once _ p x q s I). apply (R x (passed_access p)). cbn; auto.
    + eapply (step_derived _ st' bt' eager A); eauto; [discriminate| |].
      * intros k Hk. apply passed_leaf in Hk. destruct Hk as (l & Hk). exists x, (passed_access p), l. cbn. tauto.
      * intros q s I. apply (passed_once _ p x q s I). apply (R x (passed_access p)). cbn; auto.
    + eapply (step_derived _ st' bt' eager A); eauto; [discriminate| |].
      * intros k Hk. apply in_app_or in Hk. destruct Hk as [Hk|Hk]; apply passed_leaf in Hk; destruct Hk as (k' & Hk);
          [exists x, (passed_access p), k'|exists y, (passed_access p'), k']; cbn; tauto.
      * intros q s I. assert (Lx : is_live (fold_left use (uses (CPlus p p' x y)) bt) x = true) by (apply (R x (passed_access p)); cbn; auto).
        assert (Ly : is_live (fold_left use (uses (CPlus p p' x y)) bt) y = true) by (apply (R y (passed_access p')); cbn; auto).
        destruct (passed_once _ p x q s I Lx) as [X1 X2]. destruct (passed_once _ p' y q s I Ly) as [Y1 Y2].
        rewrite filter_app, app_length. destruct X2 as [->|(Mx & lx & Hx & Ox)]; [exact Y1|].
        destruct Y2 as [->|(My & ly & Hy & Oy)]; [rewrite Nat.add_0_r; exact X1|]. exfalso.
        eapply (owner_alone _ _ _ _ _ _ _ _ x Moved lx y ly I Od R); eauto; [cbn; rewrite <- Mx; auto|discriminate|].
        intros ->. cbn in Nc. rewrite Nat.eqb_refl in Nc. destruct p; discriminate.
  - replace (new_events held n o [MBase b0; MBase b1; MBase b2; MBase b3]) with
      (new_events held n (@CSplit T St x at_) [MBase b0; MBase b1; MBase b2; MBase b3]) by now rewrite Eo.
    cbn [new_events]. eapply (step_view _ st' bt' eager A true x b); auto.
    + now rewrite Eo.
    + rewrite Eo. reflexivity.
    + intros v Hv. pose proof (split_within _ _ _ _ _ _ _ Hs) as W1. pose proof (split_kind _ _ _ _ _ _ _ Hs) as W2.
      rewrite Forall_forall in W1, W2.
      assert (Z : exists b', v = MBase b' /\ In b' [b0; b1; b2; b3]).
      { destruct Hv as [<-|[<-|[<-|[<-|[]]]]]; eexists; (split; [reflexivity|cbn; auto 6]). }
      destruct Z as (b' & -> & Hb'). exists b'. destruct (W1 _ Hb'). splits; auto.
    + rewrite Eo in Ap. cbn [apart_split] in Ap. eapply Ap; eauto.
Qed.
End Step.

Lemma mats_kept : forall m st (o : call T St) st' r, no_pointers (Do o) -> step kern m st o = Ok (st', r) ->
  (r <> RNew -> st_mats st' = st_mats st) /\
  (r = RNew -> exists vs, st_mats st' = st_mats st ++ vs /\ forall bt, length (returned bt o) = length vs).
Proof.
  intros m st o st' r Np H. pose proof (step_kinds _ _ _ _ _ _ Np H) as K. destruct K as
    [r Hr E|b E _ _ _ Hret|v E _ Hret _|x at_ b b0 b1 b2 b3 -> _ _ _ _ E]; (split; [try congruence|]); intros E0; try congruence.
  - exists [MBase b]. split; auto. intros bt. now rewrite Hret.
  - exists [v]. split; auto. intros bt. now rewrite Hret.
  - eexists. split; [exact E|reflexivity].
Qed.

Lemma ghost_step : forall eager m ts es (a : action T St) ts' es' r, ghost ts es -> no_pointers a -> apart_split m (b_state (t_state ts)) a ->
  tstep kern eager m ts a = Some (Ok (ts', es', r)) ->
  bstep kern m (t_state ts) a = Some (Ok (t_state ts', r)) /\ ghost ts' (es ++ es').
Proof.
  intros eager m ts es a ts' es' r G Np Ap H. unfold tstep in H.
  destruct (bstep kern m (t_state ts) a) as [[[bs' r']| |]|] eqn:E; try discriminate. cbn [bind] in H.
  destruct (action_events eager (t_held ts) (t_next ts) (b_state (t_state ts)) (b_state bs') a r') as [[es1 new] k] eqn:Ea.
  injection H as <- <- <-. cbn [t_state]. split; auto.
  pose proof (tinv_step _ _ _ _ _ _ (g_loans _ _ G) E) as Ti.
  apply bstep_inv in E. destruct E as [(o & bt & st' & -> & A & Hs & ->)|(x & bt & -> & A & -> & ->)]; cbn [b_state b_slots] in *.
  - destruct (g_loans _ _ G) as [C _]. destruct (admitted_ready _ _ _ C A) as (_ & _ & _ & _ & _ & Ll).
    pose proof (mats_kept _ _ _ _ _ Np Hs) as [K1 K2]. pose proof (step_lengths _ _ _ _ _ _ Hs) as Hh.
    assert (Old : forall x l q, holds (t_held ts) q x l -> (fst q < length (st_heap st'))%nat).
    { intros x l q Hx. apply (g_heap _ _ G) in Hx. lia. }
    assert (D : r' = RNew \/ r' <> RNew) by (destruct r'; auto; right; discriminate). destruct D as [->|Hr].
    + destruct (K2 eq_refl) as (vs & Em & Hv). pose proof (step_new ts es G m o st' bt eager A Np Hs Ap) as X. rewrite Ea in X.
      destruct X as ((N1 & N2 & N3) & X). constructor; cbn [t_state t_held t_next b_state b_slots].
      * rewrite app_length, N1. now rewrite (g_held _ _ G).
      * rewrite app_length, Ll, (g_slots _ _ G), Em, app_length, Hv. reflexivity.
      * exact Ti.
      * intros x b Hx. destruct (Nat.lt_ge_cases x (length (t_held ts))) as [Hlt|Hge].
        -- rewrite leaves_old by auto. apply (g_base _ _ G). rewrite Em, nth_error_app1 in Hx; auto. now rewrite <- (g_held _ _ G).
        -- replace x with (length (t_held ts) + (x - length (t_held ts)))%nat in * by lia. rewrite leaves_new. apply N2.
           now rewrite <- (g_held _ _ G).
      * intros x l q Hx. destruct (Nat.lt_ge_cases x (length (t_held ts))) as [Hlt|Hge].
        -- apply (Old x l). now apply (holds_old _ new).
        -- destruct Hx as [Hx Hc]. replace x with (length (t_held ts) + (x - length (t_held ts)))%nat in Hx by lia.
           rewrite leaves_new in Hx. eapply N3; eauto.
      * intros q. destruct (g_cells _ _ G q) as (s & Es & I). rewrite cell_events_app, Es. now apply X.
    + pose proof (cells_same ts es G eager m o st' r' bt A Hs Hr) as X. rewrite Ea in X. destruct X as (-> & X).
      rewrite (K1 Hr) in *. assert (Eb : match r' with RNew => bt ++ returned (b_slots (t_state ts)) o | _ => bt end = bt) by (destruct r'; auto; now elim Hr).
      rewrite Eb in *. rewrite app_nil_r. constructor; cbn [t_state t_held t_next b_state b_slots]; auto.
      * now rewrite (K1 Hr), (g_held _ _ G).
      * now rewrite (K1 Hr), Ll, (g_slots _ _ G).
      * rewrite (K1 Hr). apply (g_base _ _ G).
      * intros q. rewrite (K1 Hr). destruct (g_cells _ _ G q) as (s & Es & I). rewrite cell_events_app, Es. now apply X.
  - cbn [action_events] in Ea. injection Ea as <- <- <-. rewrite app_nil_r, Nat.add_0_r.
    destruct (g_loans _ _ G) as [C _]. destruct (admitted_ready _ _ _ C A) as (_ & _ & _ & _ & _ & Ll).
    constructor; cbn [t_state t_held t_next b_state b_slots]; auto.
    + apply (g_held _ _ G).
    + now rewrite Ll, (g_slots _ _ G).
    + apply (g_base _ _ G).
    + apply (g_heap _ _ G).
    + intros q. destruct (g_cells _ _ G q) as (s & Es & I). rewrite cell_events_app, Es. eapply cells_drop; eauto.
Qed.

Lemma ghost_run : forall eager m (acts : list (action T St)) ts es ts' es' rs, ghost ts es -> Forall no_pointers acts ->
  apart_splits kern m (t_state ts) acts -> trun kern eager m ts acts = Some (Ok (ts', es', rs)) -> ghost ts' (es ++ es').
Proof.
  intros eager m acts. induction acts as [|a acts IH]; intros ts es ts' es' rs G Np Ap H; cbn [trun] in H.
  - injection H as <- <- <-. now rewrite app_nil_r.
  - destruct (tstep kern eager m ts a) as [[[[ts1 es1] r1]| |]|] eqn:E; try discriminate.
    destruct (trun kern eager m ts1 acts) as [[[[ts2 es2] rs2]| |]|] eqn:E2; try discriminate. injection H as <- <- <-.
    inversion Np as [|? ? N1 N2]; subst. cbn [apart_splits] in Ap. destruct Ap as [A1 A2].
    destruct (ghost_step _ _ _ _ _ _ _ _ G N1 A1 E) as [Eb G1]. rewrite app_assoc. eapply IH; eauto.
Qed.

Lemma respected : forall eager m (acts : list (action T St)) ts es rs, Forall no_pointers acts -> apart_splits kern m binitial acts ->
  trun kern eager m tinitial acts = Some (Ok (ts, es, rs)) -> respects es.
Proof.
  intros eager m acts ts es rs Np Ap H q E. pose proof (ghost_run _ _ _ _ _ _ _ _ ghost_initial Np Ap H) as G.
  destruct (g_cells _ _ G q) as (s & Es & _). cbn [app] in Es. congruence.
Qed.

(** The events come with the history. *)
Lemma trun_brun : forall eager m (acts : list (action T St)) (ts : tstate T),
  match brun kern m (t_state ts) acts with
  | Some (Ok (bs, rs)) => exists ts' es, trun kern eager m ts acts = Some (Ok (ts', es, rs)) /\ t_state ts' = bs
  | Some Panic => trun kern eager m ts acts = Some Panic
  | Some UB => trun kern eager m ts acts = Some UB
  | None => trun kern eager m ts acts = None
  end.
Proof.
  intros eager m acts. induction acts as [|a acts IH]; intros ts; cbn [brun trun].
  - exists ts, []. auto.
  - unfold tstep. destruct (bstep kern m (t_state ts) a) as [[[bs' r']| |]|]; auto. cbn [bind].
    destruct (action_events _ _ _ _ _ _ _) as [[es1 new] k].
    specialize (IH (mkTState bs' (t_held ts ++ new) (t_next ts + k))). cbn [t_state] in IH.
    destruct (brun kern m bs' acts) as [[[bs2 rs2]| |]|]; [| rewrite IH; reflexivity..].
    destruct IH as (ts' & es & -> & <-). cbn [bind]. eauto.
Qed.

Lemma traced : forall eager m (acts : list (action T St)) bs rs,
  brun kern m binitial acts = Some (Ok (bs, rs)) <->
  exists ts es, trun kern eager m tinitial acts = Some (Ok (ts, es, rs)) /\ t_state ts = bs.
Proof.
  intros eager m acts bs rs. pose proof (trun_brun eager m acts tinitial) as H. cbn [t_state tinitial] in H. split.
  - intros E. rewrite E in H. exact H.
  - intros (ts & es & E & <-). destruct (brun kern m binitial acts) as [[[bs' rs']| |]|]; try congruence.
    destruct H as (ts' & es' & E' & <-). rewrite E in E'. injection E' as <- <- <-. reflexivity.
Qed.
End History.
