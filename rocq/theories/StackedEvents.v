(** * The events of a history are those of its accesses. *)

From Coq Require Import Lia ZifyBool ZifyNat ZifyN.
From Verif Require Import Machine MachineFacts Layouts Memory Matrix MatMul Spec MatrixSpec ExprSpec ProductSpec.
From Verif Require Import LayoutFacts MemoryFacts AccessFacts AccessProofs ConstructorProofs BlockProofs.
From Verif Require Import ExprProofs ProductProofs Program HistorySpec HistoryProofs HistorySafety Borrow BorrowFacts BorrowProofs.
From Verif Require Import TypesProofs ThreadProofs Stacked StackedFacts StackedCell StackedNew StackedProofs StackedHistory.

Section Events.
Context {T : Type} {SC : HScalar T} {St : Type}.
Variable kern : kernel T.

Lemma covers_region : forall (r : region) q, covers r q = true <-> fst q = r_alloc r /\ (r_lo r <= snd q)%N /\ (snd q < r_lo r + r_len r)%N.
Proof. intros r q. unfold covers. lia. Qed.

Lemma reaches_base : forall t b, reaches_as (MBase b : matrix T) [base_leaf t b].
Proof.
  intros t b. unfold reaches_as. splits.
  - intros q. cbn [occupies]. cbv zeta. rewrite <- covers_region. split.
    + intros H. exists (base_leaf t b). split; [now left|exact H].
    + intros (l & [<-|[]] & H). exact H.
  - intros l [<-|[]]. reflexivity.
  - intros a. cbn [owners filter]. unfold base_leaf, owned_kind, allocation. cbn [l_owned l_region].
    destruct (c_kind (bm_data b)); cbn [andb]; auto; destruct (Nat.eqb _ _); reflexivity.
Qed.

Lemma reaches_lend : forall mut (v w : matrix T) ls, reaches_as v ls -> (forall q, occupies w q <-> occupies v q) ->
  is_writable w = (mut && is_writable v)%bool -> (forall a, owners a w = 0%nat) -> reaches_as w (map (lend_leaf mut) ls).
Proof.
  intros mut v w ls (H1 & H2 & H3) Ho Hw H0. unfold reaches_as. splits.
  - intros q. rewrite Ho, H1. split.
    + intros (l & Hl & Hc). exists (lend_leaf mut l). split; [now apply in_map|exact Hc].
    + intros (l & Hl & Hc). apply in_map_iff in Hl. destruct Hl as (l' & <- & Hl). exists l'. auto.
  - intros l Hl. apply in_map_iff in Hl. destruct Hl as (l' & <- & Hl). cbn [lend_leaf l_write]. now rewrite (H2 l' Hl).
  - intros a. rewrite H0. clear. induction ls; cbn; auto.
Qed.

Lemma reaches_pass : forall p (v w : matrix T) ls, reaches_as v ls -> (forall q, occupies w q <-> occupies v q) ->
  is_writable w = false -> (forall a, owners a w = owners a (wrap p v)) -> reaches_as w (map (pass_leaf p) ls).
Proof.
  intros p v w ls H Ho Hw H0. destruct p.
  - destruct H as (H1 & H2 & H3). unfold reaches_as. splits.
    + intros q. rewrite Ho, H1. split.
      * intros (l & Hl & Hc). exists (pass_leaf ByValue l). split; [now apply in_map|exact Hc].
      * intros (l & Hl & Hc). apply in_map_iff in Hl. destruct Hl as (l' & <- & Hl). exists l'. auto.
    + intros l Hl. apply in_map_iff in Hl. destruct Hl as (l' & <- & Hl). now rewrite Hw.
    + intros a. rewrite H0. cbn [wrap]. rewrite H3. clear. induction ls as [|l ls IH]; auto.
      cbn [map filter pass_leaf l_owned l_region]. destruct (_ && _); cbn [length]; congruence.
  - apply (reaches_lend false v); auto.
Qed.

Lemma reaches_passed : forall p (v : matrix T) s ls, reaches_as v ls -> reaches_as (MScalarMult (wrap p v) s) (map (pass_leaf p) ls).
Proof.
  intros p v s ls H. apply (reaches_pass p v); auto. intros q. cbn [occupies]. apply wrap_occupies.
Qed.

Lemma reaches_plus : forall (v w : matrix T) s l lv lw, reaches_as (MScalarMult v s) lv -> reaches_as (MScalarMult w s) lw ->
  reaches_as (MAddition v w l) (lv ++ lw).
Proof.
  intros v w s l lv lw (A1 & A2 & A3) (B1 & B2 & B3). unfold reaches_as. splits.
  - intros q. cbn [occupies] in *. rewrite A1, B1. split.
    + intros [(k & Hk & Hc)|(k & Hk & Hc)]; exists k; split; auto; apply in_or_app; auto.
    + intros (k & Hk & Hc). apply in_app_or in Hk. destruct Hk; [left|right]; eauto.
  - intros k Hk. apply in_app_or in Hk. destruct Hk as [Hk|Hk]; [now apply A2|now apply B2].
  - intros a. rewrite filter_app, app_length, <- A3, <- B3. reflexivity.
Qed.

(** ** The memory that the matrices of a history reach *)

Definition shown (mats : list (matrix T)) (held : list (list leaf)) : Prop :=
  length held = length mats /\ forall x v, nth_error mats x = Some v -> reaches_as v (leaves_of held x).

Lemma shown_app : forall mats held vs new, shown mats held -> shown vs new -> shown (mats ++ vs) (held ++ new).
Proof.
  intros mats held vs new [L1 H1] [L2 H2]. split; [rewrite !app_length; lia|]. intros x v Hx.
  destruct (Nat.lt_ge_cases x (length held)) as [Hlt|Hge].
  - rewrite leaves_old by auto. apply H1. rewrite nth_error_app1 in Hx by lia. exact Hx.
  - rewrite nth_error_app2 in Hx by lia. replace x with (length held + (x - length held))%nat by lia. rewrite leaves_new.
    apply H2. now rewrite L1.
Qed.

Lemma shown_one : forall v ls, reaches_as v ls -> shown [v] [ls].
Proof. intros v ls H. split; auto. intros [|[|x]] w Hx; cbn in Hx; try discriminate. injection Hx as <-. exact H. Qed.

Lemma shown_parts : forall mut vs t, (forall v, In v vs -> exists b, v = MBase b /\ container_is_mut (bm_data b) = mut /\
  (c_kind (bm_data b) = SliceContainer \/ c_kind (bm_data b) = SliceContainerMut)) -> shown vs (parts_leaves mut t vs).
Proof.
  intros mut vs t H. split; [apply parts_leaves_length|]. intros x v Hx. rewrite (parts_leaves_at _ _ _ _ _ Hx).
  destruct (H v (nth_error_In _ _ Hx)) as (b & -> & E1 & E2).
  replace (mkLeaf (t + x) (region_of (MBase b)) mut false) with (base_leaf (t + x) b) by (unfold base_leaf; cbn [region_of]; rewrite E1; destruct E2 as [-> | ->]; reflexivity).
  apply reaches_base.
Qed.

Lemma shown_fresh : forall b t, owned_container b -> shown [MBase b] [[mkLeaf t (c_region (bm_data b)) true true]].
Proof.
  intros b t Hc. apply shown_one. replace (mkLeaf t (c_region (bm_data b)) true true) with (base_leaf t b); [apply reaches_base|].
  unfold base_leaf, container_is_mut. unfold owned_container in Hc. destruct (c_kind (bm_data b)); destruct Hc; reflexivity.
Qed.

Lemma fresh_new : forall (o : call T St) held n b, no_pointers (Do o) -> (forall bt, returned bt o = [mkSlot true [] false]) ->
  (exists shape x y, o = CDot shape x y) \/
  new_events held n o [MBase b] = ([Allocate n (c_region (bm_data b))], [[mkLeaf n (c_region (bm_data b)) true true]], 1%nat).
Proof.
  intros o held n b Np H.
  assert (X : forall us, (forall bt, [borrowing bt us] = [mkSlot true [] false]) -> us = []).
  { intros [|[x a] us] H'; auto. remember (repeat (mkSlot true [(O, true)] false) (S x)) as bt1 eqn:E1.
    assert (E : loans_of bt1 x = [(O, true)]) by (unfold loans_of; subst bt1; rewrite nth_error_repeat by lia; reflexivity).
    specialize (H' bt1). unfold borrowing in H'. cbn [flat_map] in H'. injection H' as H' _.
    apply app_eq_nil in H'. destruct H' as [H' _]. destruct a; try discriminate. cbn [lent snd fst] in H'. congruence. }
  destruct o; try (right; reflexivity); try (now destruct Np); try (left; repeat eexists; fail);
    try (specialize (H []); discriminate H); try (apply X in H; discriminate H).
Qed.

Lemma new_shown : forall m st (o : call T St) st' held n, no_pointers (Do o) -> step kern m st o = Ok (st', RNew) ->
  shown (st_mats st) held ->
  exists vs, st_mats st' = st_mats st ++ vs /\ shown vs (snd (fst (new_events held n o (skipn (length (st_mats st)) (st_mats st'))))).
Proof.
  intros m st o st' held n Np H [_ Sh]. pose proof (step_kinds _ _ _ _ _ _ Np H) as K.
  assert (Sk : forall vs, st_mats st' = st_mats st ++ vs -> skipn (length (st_mats st)) (st_mats st') = vs).
  { intros vs ->. now rewrite skipn_app, skipn_all, Nat.sub_diag. }
  inversion K as [r Hr | b Em Ha Hl Hc Hret | v Em Eh Hret Hd | x at_ b b0 b1 b2 b3 Eo Hx _ Hs Eh Em]; [congruence| | |];
    rewrite (Sk _ Em); eexists; (split; [exact Em|]).
  - destruct (fresh_new o held n b Np Hret) as [(shape & x & y & Eo)|E].
    + subst o. apply shown_fresh. exact Hc.
    + rewrite E. apply shown_fresh. exact Hc.
  - destruct Hd as
    [mut x first last rs cs l b rg v E Er Ev | mut x tl d b v E Ev | x y E | x y E | c p x y E | c p x y E
    | p p' x y u v l E1 E2]; cbn [new_events fst snd].
    + apply shown_parts. intros w [<-|[]]. exists v. apply from_data_data in Ev. subst v. cbn [bm_data]. splits; auto.
      * apply slice_container_mut_is.
      * apply slice_container_kind.
    + apply shown_parts. intros w [<-|[]]. exists v. pose proof (block_within _ _ _ _ _ _ Ev) as [W1 W2]. splits; auto.
      eapply block_kind; eauto.
    + apply shown_one. apply (reaches_lend false y); auto. tauto.
    + apply shown_one. apply (reaches_lend true y); auto. tauto.
    + apply shown_one. apply reaches_passed. now apply Sh.
    + apply shown_one. apply reaches_passed. now apply Sh.
    + apply shown_one. apply (reaches_plus _ _ szero); apply reaches_passed; now apply Sh.
  - subst o. cbn [new_events fst snd]. apply shown_parts.
    intros v Hv. pose proof (split_within _ _ _ _ _ _ _ Hs) as W1. pose proof (split_kind _ _ _ _ _ _ _ Hs) as W2.
    rewrite Forall_forall in W1, W2.
    assert (Z : exists b', v = MBase b' /\ In b' [b0; b1; b2; b3]).
    { destruct Hv as [<-|[<-|[<-|[<-|[]]]]]; eexists; (split; [reflexivity|cbn; auto 6]). }
    destruct Z as (b' & -> & Hb'). exists b'. destruct (W1 _ Hb'). splits; auto.
Qed.

Definition tshown (ts : tstate T) : Prop :=
  shown (st_mats (b_state (t_state ts))) (t_held ts) /\ all_placed (b_state (t_state ts)).

Lemma tstep_inv : forall eager m ts (a : action T St) ts' es r, tstep kern eager m ts a = Some (Ok (ts', es, r)) ->
  exists bs' new k, bstep kern m (t_state ts) a = Some (Ok (bs', r)) /\
    action_events eager (t_held ts) (t_next ts) (b_state (t_state ts)) (b_state bs') a r = (es, new, k) /\
    ts' = mkTState bs' (t_held ts ++ new) (t_next ts + k)%nat.
Proof.
  intros eager m ts a ts' es r H. unfold tstep in H.
  destruct (bstep kern m (t_state ts) a) as [[[bs' r']| |]|] eqn:E; try discriminate. cbn [bind] in H.
  destruct (action_events eager (t_held ts) (t_next ts) (b_state (t_state ts)) (b_state bs') a r') as [[es1 new] k] eqn:Ea.
  injection H as <- <- <-. exists bs', new, k. auto.
Qed.

Lemma tshown_step : forall eager m ts (a : action T St) ts' es r, no_pointers a -> tshown ts ->
  tstep kern eager m ts a = Some (Ok (ts', es, r)) -> tshown ts'.
Proof.
  intros eager m ts a ts' es r Np [Sh Pl] H. apply tstep_inv in H. destruct H as (bs' & new & k & Hb & Ea & ->).
  apply bstep_inv in Hb. destruct Hb as [(o & bt & st' & -> & A & Hs & ->)|(x & bt & -> & A & -> & ->)]; cbn [b_state b_slots] in *.
  2:{ cbn [action_events] in Ea. injection Ea as <- <- <-. unfold tshown. cbn [t_state t_held b_state]. rewrite app_nil_r. auto. }
  unfold tshown. cbn [t_state t_held b_state]. pose proof (step_effect _ _ _ _ _ _ Pl Hs) as (_ & _ & Pl'). split; auto.
  assert (D : r = RNew \/ r <> RNew) by (destruct r; auto; right; discriminate). destruct D as [->|Hr].
  - destruct (new_shown _ _ _ _ _ (t_next ts) Np Hs Sh) as (vs & Em & Hv). cbn [action_events] in Ea.
    destruct (new_events _ _ _ _) as [[es1 new1] k1]. injection Ea as _ <- _. cbn [fst snd] in Hv. rewrite Em. now apply shown_app.
  - pose proof (mats_kept _ _ _ _ _ _ Np Hs) as [K1 _]. rewrite (K1 Hr). replace new with (@nil (list leaf)); [now rewrite app_nil_r|].
    cbn [action_events] in Ea. destruct r; try congruence; destruct (late_events _ _ _) as [es1 k1]; congruence.
Qed.

Lemma tshown_run : forall eager m (acts : list (action T St)) ts ts' es rs, Forall no_pointers acts -> tshown ts ->
  trun kern eager m ts acts = Some (Ok (ts', es, rs)) -> tshown ts'.
Proof.
  intros eager m acts. induction acts as [|a acts IH]; intros ts ts' es rs Np Sh H; cbn [trun] in H.
  - injection H as <- <- <-. exact Sh.
  - destruct (tstep kern eager m ts a) as [[[[ts1 es1] r1]| |]|] eqn:E; try discriminate.
    destruct (trun kern eager m ts1 acts) as [[[[ts2 es2] rs2]| |]|] eqn:E2; try discriminate.
    cbn [bind] in H. injection H as <- <- <-. inversion Np; subst. eapply IH; [eauto| |exact E2]. eapply tshown_step; eauto.
Qed.

Lemma tshown_initial : tshown tinitial.
Proof. split; [|apply initial_placed]. split; auto. intros x v H. destruct x; discriminate. Qed.

Lemma held_exactly : forall eager m (acts : list (action T St)) ts es rs x v, Forall no_pointers acts ->
  trun kern eager m tinitial acts = Some (Ok (ts, es, rs)) ->
  nth_error (st_mats (b_state (t_state ts))) x = Some v -> reaches_as v (leaves_of (t_held ts) x).
Proof.
  intros eager m acts ts es rs x v Np H Hx. destruct (tshown_run _ _ _ _ _ _ _ Np tshown_initial H) as [[_ S] _]. now apply S.
Qed.

(** ** The accesses of a step *)

Lemma target_use : forall m st (o : call T St) v, target st o = Some v -> exec kern m st o <> None ->
  reaches_data o = true /\ is_writable v = true /\ exists x, nth_error (st_mats st) x = Some v /\ In (x, Exclusive) (uses o).
Proof.
  intros m st o v Ht He.
  assert (TM : forall n, nth_error (st_mats st) n = Some v -> lookup_mut st n <> None -> is_writable v = true).
  { intros n Hn Hm. destruct (lookup_mut st n) as [b|] eqn:E; [|congruence]. apply lookup_mut_writable in E. destruct E as [E1 E2].
    unfold lookup in E1. congruence. }
  destruct o; cbn [target] in Ht; try discriminate Ht; cbn [exec] in He; unfold typed, when in He; (split; [reflexivity|]);
    (split; [|eexists; split; [exact Ht|cbn; auto]]).
  1-4: unfold lookup in He; rewrite Ht in He; destruct (is_writable v); congruence.
  1-3: apply (TM _ Ht); intros E; rewrite E in He; congruence.
  apply (TM _ Ht); intros E. rewrite E in He. destruct (lookup_base st a), (lookup_base st b); congruence.
Qed.

Lemma reached_events : forall eager (o : call T St) held n st st' r es new k,
  action_events eager held n st st' (Do o) r = (es, new, k) -> r <> RSkipped ->
  exists es', es = flat_map (use_events eager o held) (uses o) ++ es'.
Proof.
  intros eager o held n st st' r es new k H Hr. cbn [action_events] in H.
  destruct r; try congruence;
    try (destruct (new_events _ _ _ _) as [[es1 new1] k1]; injection H as <- <- <-; eauto; fail);
    try (destruct (late_events _ _ _) as [es1 k1]; injection H as <- <- <-; eauto; fail).
  injection H as <- <- <-. eauto.
Qed.

Lemma use_reached : forall eager (o : call T St) held (v : matrix T) x a es' q, reaches_data o = true -> reaches_as v (leaves_of held x) ->
  In (x, a) (uses o) -> occupies v q ->
  exists w, accessed (flat_map (use_events eager o held) (uses o) ++ es') w q /\ (a = Exclusive -> w = is_writable v) /\ (a = Shared -> w = false).
Proof.
  intros eager o held v x a es' q Hd (H1 & H2 & _) Hu Hq. apply H1 in Hq. destruct Hq as (l & Hl & Hc).
  exists (access_writes a l). splits.
  - exists (l_tag l), (l_region l). split; auto. apply in_or_app. left. apply in_flat_map. exists (x, a). split; auto.
    unfold use_events. rewrite Hd, orb_true_r. apply in_map_iff. exists l. auto.
  - intros ->. cbn [access_writes]. auto.
  - intros ->. reflexivity.
Qed.

Lemma step_accesses : forall eager m ts (o : call T St) ts' es r, tshown ts ->
  tstep kern eager m ts (Do o) = Some (Ok (ts', es, r)) ->
  (forall x a v q, r <> RSkipped -> reaches_data o = true -> In (x, a) (uses o) ->
     nth_error (st_mats (b_state (t_state ts))) x = Some v -> occupies v q ->
     exists w, accessed es w q /\ (a = Exclusive -> w = is_writable v) /\ (a = Shared -> w = false)) /\
  (forall a i, (a < length (st_heap (b_state (t_state ts))))%nat ->
     hget (st_heap (b_state (t_state ts'))) a i <> hget (st_heap (b_state (t_state ts))) a i -> accessed es true (a, i)).
Proof.
  intros eager m ts o ts' es r [[_ Sh] Pl] H. apply tstep_inv in H. destruct H as (bs' & new & k & Hb & Ea & ->).
  apply bstep_inv in Hb. destruct Hb as [(o' & bt & st' & Eo & A & Hs & ->)|(x & bt & Eo & _)]; [|discriminate].
  injection Eo as <-. cbn [b_state t_state] in *. split.
  - intros x a v q Hr Hd Hu Hx Hq. destruct (reached_events _ _ _ _ _ _ _ _ _ _ Ea Hr) as (es' & ->).
    eapply use_reached; eauto.
  - intros a i Ha Hne. destruct (step_effect _ _ _ _ _ _ Pl Hs) as ((_ & Ht) & _ & _).
    destruct (writes_over_dec (b_state (t_state ts)) o (a, i)) as [(v & Hv & Hq)|Hno].
    2:{ exfalso. apply Hne. now apply Ht. }
    assert (Hex : exec kern m (b_state (t_state ts)) o <> None /\ r <> RSkipped).
    { destruct (step_cases _ _ _ _ _ _ Hs) as [E|[(E1 & E2 & E)|(E1 & E2 & E)]].
      - rewrite E. split; [discriminate|]. now apply exec_seen in E.
      - rewrite E, E2. split; discriminate.
      - rewrite E1 in Hne. now elim Hne. }
    destruct Hex as [Hex Hr]. destruct (target_use _ _ _ _ Hv Hex) as (Hd & Hw & x & Hx & Hu).
    destruct (reached_events _ _ _ _ _ _ _ _ _ _ Ea Hr) as (es' & ->).
    destruct (use_reached eager o (t_held ts) v x Exclusive es' (a, i) Hd (Sh x v Hx) Hu Hq) as (w & Hacc & E & _).
    rewrite E in Hacc by reflexivity. now rewrite Hw in Hacc.
Qed.

(** ** Freed memory and new tags *)

Lemma frees_app : forall a es es', frees a (es ++ es') = (frees a es + frees a es')%nat.
Proof. intros a es es'. unfold frees. now rewrite filter_app, app_length. Qed.

Lemma frees_none : forall a es, (forall t r, ~ In (Free t r) es) -> frees a es = 0%nat.
Proof.
  intros a es H. induction es as [|e es IH]; auto. change (e :: es) with ([e] ++ es). rewrite frees_app, IH.
  - destruct e as [| | |t r]; auto. elim (H t r). now left.
  - intros t r Hr. apply (H t r). now right.
Qed.

Lemma frees_drop : forall a held x, frees a (drop_events held x) =
  length (filter (fun l => l_owned l && Nat.eqb (r_alloc (l_region l)) a) (leaves_of held x)).
Proof.
  intros a held x. unfold drop_events. induction (leaves_of held x) as [|l ls IH]; auto.
  cbn [flat_map filter]. rewrite frees_app, IH. destruct (l_owned l); cbn [andb]; auto.
  unfold frees. cbn [filter]. destruct (Nat.eqb _ _); reflexivity.
Qed.

Lemma parts_no_free : forall mut raw (vs : list (matrix T)) t u r, ~ In (Free u r) (parts_events mut raw t vs).
Proof. intros mut raw vs. induction vs as [|v vs IH]; intros t u r H; [destruct H|]. destruct H as [H|H]; [discriminate|]. eapply IH; eauto. Qed.

Lemma map_no_free : forall A (f : A -> event) ls t r, (forall l, f l <> Free t r) -> ~ In (Free t r) (map f ls).
Proof. intros A f ls t r H Hi. apply in_map_iff in Hi. destruct Hi as (l & E & _). now apply (H l). Qed.

Lemma new_no_free : forall held n (o : call T St) vs t r, ~ In (Free t r) (fst (fst (new_events held n o vs))).
Proof.
  intros held n o vs t r.
  assert (V : forall mut x, ~ In (Free t r) (raw_events mut held x n ++ parts_events mut n (S n) vs)).
  { intros mut x H. apply in_app_or in H. destruct H as [H|H]; [now apply map_no_free in H|now apply parts_no_free in H]. }
  assert (P : forall mut x n', ~ In (Free t r) (raw_events mut held x n')) by (intros; now apply map_no_free).
  assert (U : forall mut x n', ~ In (Free t r) (raw_uses mut held x n')) by (intros; now apply map_no_free).
  destruct o; cbn [new_events fst snd]; auto; try (now apply map_no_free).
  unfold product_events, product_reads. intros H. rewrite !in_app_iff in H.
  destruct H as [[H|H]|[[H|H]|H]]; [now apply P in H|now apply P in H|now apply U in H|now apply U in H|now apply map_no_free in H].
Qed.

Lemma late_no_free : forall held n (o : call T St) t r, ~ In (Free t r) (fst (late_events held n o)).
Proof.
  intros held n o t r.
  assert (P : forall mut x n', ~ In (Free t r) (raw_events mut held x n')) by (intros; now apply map_no_free).
  assert (U : forall mut x n', ~ In (Free t r) (raw_uses mut held x n')) by (intros; now apply map_no_free).
  destruct o; cbn [late_events fst]; auto.
  unfold product_events, product_reads. intros H. rewrite !in_app_iff in H.
  destruct H as [[H|H]|[H|[[H|H]|H]]]; try (now apply P in H); now apply U in H.
Qed.

Lemma use_no_free : forall eager (o : call T St) held us t r, ~ In (Free t r) (flat_map (use_events eager o held) us).
Proof.
  intros eager o held us t r H. apply in_flat_map in H. destruct H as (u & _ & H). unfold use_events in H.
  destruct (_ || _); [now apply map_no_free in H|destruct H].
Qed.

Lemma step_frees : forall eager m ts (a : action T St) ts' es r, tshown ts ->
  tstep kern eager m ts a = Some (Ok (ts', es, r)) ->
  match a with
  | Drop x => forall v, nth_error (st_mats (b_state (t_state ts))) x = Some v -> forall i, frees i es = owners i v
  | Do _ => r <> RPanicked -> forall i, frees i es = 0%nat
  end.
Proof.
  intros eager m ts a ts' es r [[_ Sh] _] H. apply tstep_inv in H. destruct H as (bs' & new & k & _ & Ea & _). destruct a as [o|x].
  - intros Hr i. apply frees_none. intros t rg. cbn [action_events] in Ea.
    assert (N : forall es1 es2, (forall t r, ~ In (Free t r) es2) -> (flat_map (use_events eager o (t_held ts)) (uses o) ++ es2, es1, k) = (es, new, k) -> ~ In (Free t rg) es).
    { intros es1 es2 H2 E. injection E as <- _. intros H. apply in_app_or in H. destruct H as [H|H]; [now apply use_no_free in H|now apply H2 in H]. }
    pose proof (late_no_free (t_held ts) (t_next ts) o) as La.
    pose proof (new_no_free (t_held ts) (t_next ts) o (skipn (length (st_mats (b_state (t_state ts)))) (st_mats (b_state bs')))) as Ne.
    destruct (late_events _ _ _) as [es1 k1]. destruct (new_events _ _ _ _) as [[es2 new2] k2]. cbn [fst] in La, Ne.
    destruct r; try congruence; injection Ea as E1 E2 E3; subst k es new.
    all: try (eapply N; [exact La|reflexivity]).
    all: try (eapply N; [exact Ne|reflexivity]).
    intros [].
  - intros v Hv i. cbn [action_events] in Ea. injection Ea as <- _ _. rewrite frees_drop. symmetry. now apply (Sh x v Hv).
Qed.

Lemma parts_made : forall mut raw (vs : list (matrix T)) t i v, nth_error vs i = Some v ->
  In (Reborrow raw (t + i) (view_permission mut) (region_of v)) (parts_events mut raw t vs).
Proof.
  intros mut raw vs. induction vs as [|w vs IH]; intros t [|i] v H; cbn in H; try discriminate.
  - injection H as ->. left. now rewrite Nat.add_0_r.
  - right. replace (t + S i)%nat with (S t + i)%nat by lia. now apply IH.
Qed.

(** The tags of the new matrices with containers of their own follow each other from [t] on. *)
Definition tagged_from (t : tag) (es : list event) (n n' : tag) (vs : list (matrix T)) (new : list (list leaf)) : Prop :=
  forall i b, nth_error vs i = Some (MBase b) -> (n <= t + i < n')%nat /\ leaves_of new i = [base_leaf (t + i) b] /\
    makes es (t + i) (c_region (bm_data b)) (container_is_mut (bm_data b)) (owned_kind (c_kind (bm_data b))).

Lemma tagged_parts : forall mut n pre (vs : list (matrix T)), (forall v, In v vs -> exists b, v = MBase b /\ container_is_mut (bm_data b) = mut /\
  (c_kind (bm_data b) = SliceContainer \/ c_kind (bm_data b) = SliceContainerMut)) ->
  tagged_from (S n) (pre ++ parts_events mut n (S n) vs) n (n + S (length vs)) vs (parts_leaves mut (S n) vs).
Proof.
  intros mut n pre vs H i b Hi. pose proof (nth_error_In _ _ Hi) as Hv.
  assert (Hl : (i < length vs)%nat) by (apply nth_error_Some; congruence).
  destruct (H _ Hv) as (b' & E & E1 & E2). injection E as <-. splits.
  - lia.
  - lia.
  - rewrite (parts_leaves_at _ _ _ _ _ Hi). unfold base_leaf. cbn [region_of]. rewrite E1. destruct E2 as [-> | ->]; reflexivity.
  - assert (X : In (Reborrow n (S n + i) (view_permission mut) (region_of (MBase b))) (pre ++ parts_events mut n (S n) vs))
      by (apply in_or_app; right; now apply parts_made).
    unfold makes. rewrite E1. destruct E2 as [-> | ->]; cbn [owned_kind]; exists n; exact X.
Qed.

Lemma tagged_fresh : forall t n n' pre b, owned_container b -> (n <= t < n')%nat ->
  tagged_from t (pre ++ [Allocate t (c_region (bm_data b))]) n n' [MBase b] [[mkLeaf t (c_region (bm_data b)) true true]].
Proof.
  intros t n n' pre b Hc Ht i b' Hi. destruct i as [|[|i]]; cbn in Hi; try discriminate. injection Hi as <-. rewrite Nat.add_0_r.
  splits; try lia.
  - cbn. unfold base_leaf, container_is_mut. unfold owned_container in Hc. destruct (c_kind (bm_data b)); destruct Hc; reflexivity.
  - unfold makes. unfold owned_container in Hc.
    destruct (c_kind (bm_data b)); destruct Hc; cbn [owned_kind]; apply in_or_app; right; now left.
Qed.

Lemma tagged_none : forall t es n n' v new, (forall b, v <> MBase b) -> tagged_from t es n n' [v] new.
Proof. intros t es n n' v new H i b Hi. destruct i as [|[|i]]; cbn in Hi; try discriminate. injection Hi as E. now elim (H b). Qed.

Lemma tagged_more : forall t pre es n n' vs new, tagged_from t es n n' vs new -> tagged_from t (pre ++ es) n n' vs new.
Proof.
  intros t pre es n n' vs new H i b Hi. destruct (H i b Hi) as (H1 & H2 & H3). split; auto. split; auto.
  unfold makes in *. destruct (owned_kind _); [|destruct H3 as [p H3]; exists p]; apply in_or_app; auto.
Qed.

Lemma new_tags : forall m st (o : call T St) st' held n, no_pointers (Do o) -> step kern m st o = Ok (st', RNew) ->
  let '(es, new, k) := new_events held n o (skipn (length (st_mats st)) (st_mats st')) in
  exists t vs, st_mats st' = st_mats st ++ vs /\ tagged_from t es n (n + k) vs new.
Proof.
  intros m st o st' held n Np H. pose proof (step_kinds _ _ _ _ _ _ Np H) as K.
  assert (Sk : forall vs, st_mats st' = st_mats st ++ vs -> skipn (length (st_mats st)) (st_mats st') = vs).
  { intros vs ->. now rewrite skipn_app, skipn_all, Nat.sub_diag. }
  inversion K as [r Hr | b Em Ha Hl Hc Hret | v Em Eh Hret Hd | x at_ b b0 b1 b2 b3 Eo Hx _ Hs Eh Em]; [congruence| | |];
    rewrite (Sk _ Em).
  - destruct (fresh_new o held n b Np Hret) as [(shape & x & y & Eo)|E].
    + subst o. cbn [new_events map fst snd region_of]. exists (n + 2)%nat, [MBase b]. split; auto. rewrite app_assoc.
      apply tagged_fresh; auto. lia.
    + rewrite E. exists n, [MBase b]. split; auto. apply (tagged_fresh n n (n + 1) []); auto. lia.
  - destruct Hd as
    [mut x first last rs cs l b rg v E Er Ev | mut x tl d b v E Ev | x y E | x y E | c p x y E | c p x y E
    | p p' x y u v l E1 E2]; cbn [new_events fst snd].
    3-7: exists n; eexists; (split; [exact Em|apply tagged_none; discriminate]).
    + exists (S n), [MBase v]. split; auto. apply tagged_parts. intros w [<-|[]]. exists v. apply from_data_data in Ev. subst v. cbn [bm_data]. splits; auto.
      * apply slice_container_mut_is.
      * apply slice_container_kind.
    + exists (S n), [MBase v]. split; auto. apply tagged_parts. intros w [<-|[]]. exists v. pose proof (block_within _ _ _ _ _ _ Ev) as [W1 W2]. splits; auto.
      eapply block_kind; eauto.
  - subst o. cbn [new_events fst snd]. exists (S n), [MBase b0; MBase b1; MBase b2; MBase b3]. split; auto. apply tagged_parts.
    intros v Hv. pose proof (split_within _ _ _ _ _ _ _ Hs) as W1. pose proof (split_kind _ _ _ _ _ _ _ Hs) as W2.
    rewrite Forall_forall in W1, W2.
    assert (Z : exists b', v = MBase b' /\ In b' [b0; b1; b2; b3]).
    { destruct Hv as [<-|[<-|[<-|[<-|[]]]]]; eexists; (split; [reflexivity|cbn; auto 6]). }
    destruct Z as (b' & -> & Hb'). exists b'. destruct (W1 _ Hb'). splits; auto.
Qed.

Lemma step_makes : forall eager m ts (a : action T St) ts' es r, no_pointers a ->
  tstep kern eager m ts a = Some (Ok (ts', es, r)) -> (t_next ts <= t_next ts')%nat /\
  exists t vs new, st_mats (b_state (t_state ts')) = st_mats (b_state (t_state ts)) ++ vs /\
    t_held ts' = t_held ts ++ new /\ tagged_from t es (t_next ts) (t_next ts') vs new.
Proof.
  intros eager m ts a ts' es r Np H. apply tstep_inv in H. destruct H as (bs' & new & k & Hb & Ea & ->). cbn [t_state t_held t_next].
  split; [lia|].
  assert (Z : forall es, st_mats (b_state bs') = st_mats (b_state (t_state ts)) -> exists t vs new', st_mats (b_state bs') = st_mats (b_state (t_state ts)) ++ vs /\
    t_held ts ++ new = t_held ts ++ new' /\ tagged_from t es (t_next ts) (t_next ts + k) vs new').
  { intros es' E. exists (t_next ts), [], new. rewrite E, app_nil_r. splits; auto. intros i b Hi. destruct i; discriminate. }
  apply bstep_inv in Hb. destruct Hb as [(o & bt & st' & -> & A & Hs & ->)|(x & bt & -> & A & -> & ->)]; cbn [b_state b_slots] in *;
    [|now apply Z].
  pose proof (mats_kept _ _ _ _ _ _ Np Hs) as [K1 _].
  assert (D : r = RNew \/ r <> RNew) by (destruct r; auto; right; discriminate). destruct D as [->|Hr]; [|now apply Z, K1].
  pose proof (new_tags _ _ _ _ (t_held ts) (t_next ts) Np Hs) as X. cbn [action_events] in Ea.
  destruct (new_events _ _ _ _) as [[es1 new1] k1]. injection Ea as <- <- <-. destruct X as (t & vs & E & X).
  exists t, vs, new1. splits; auto. now apply tagged_more.
Qed.

Definition ttags (ts : tstate T) : Prop :=
  length (t_held ts) = length (st_mats (b_state (t_state ts))) /\
  (forall x b l, nth_error (st_mats (b_state (t_state ts))) x = Some (MBase b) -> In l (leaves_of (t_held ts) x) -> (l_tag l < t_next ts)%nat) /\
  (forall x y b c l k, x <> y -> nth_error (st_mats (b_state (t_state ts))) x = Some (MBase b) ->
     nth_error (st_mats (b_state (t_state ts))) y = Some (MBase c) -> In l (leaves_of (t_held ts) x) -> In k (leaves_of (t_held ts) y) ->
     l_tag l <> l_tag k).

Lemma ttags_step : forall eager m ts (a : action T St) ts' es r, no_pointers a -> tshown ts -> ttags ts ->
  tstep kern eager m ts a = Some (Ok (ts', es, r)) -> ttags ts'.
Proof.
  intros eager m ts a ts' es r Np Sh (L & B & D) H. pose proof (tshown_step _ _ _ _ _ _ _ Np Sh H) as [[L' _] _].
  destruct (step_makes _ _ _ _ _ _ _ Np H) as (Hn & t & vs & new & Em & Eh & Tg). split; auto.
  assert (O : forall x b l, nth_error (st_mats (b_state (t_state ts'))) x = Some (MBase b) -> In l (leaves_of (t_held ts') x) ->
    ((x < length (t_held ts))%nat /\ nth_error (st_mats (b_state (t_state ts))) x = Some (MBase b) /\ In l (leaves_of (t_held ts) x)) \/
    (length (t_held ts) <= x /\ l_tag l = t + (x - length (t_held ts)) /\ t_next ts <= l_tag l < t_next ts')%nat).
  { intros x b l Hx Hl. rewrite Em in Hx. rewrite Eh in Hl. destruct (Nat.lt_ge_cases x (length (t_held ts))) as [Hlt|Hge].
    - left. rewrite leaves_old in Hl by auto. rewrite nth_error_app1 in Hx by lia. auto.
    - right. rewrite nth_error_app2, <- L in Hx by lia. destruct (Tg _ _ Hx) as (T1 & T2 & _).
      replace x with (length (t_held ts) + (x - length (t_held ts)))%nat in Hl by lia. rewrite leaves_new, T2 in Hl.
      destruct Hl as [<-|[]]. cbn [base_leaf l_tag]. lia. }
  split.
  - intros x b l Hx Hl. destruct (O x b l Hx Hl) as [(_ & H1 & H2)|(_ & _ & H1)]; [|lia]. pose proof (B x b l H1 H2). lia.
  - intros x y b c l k Hne Hx Hy Hl Hk. destruct (O x b l Hx Hl) as [(X & X1 & X2)|(X & X1 & X2)];
      destruct (O y c k Hy Hk) as [(Y & Y1 & Y2)|(Y & Y1 & Y2)].
    + now apply (D x y b c l k).
    + pose proof (B x b l X1 X2). lia.
    + pose proof (B y c k Y1 Y2). lia.
    + lia.
Qed.

Lemma ttags_run : forall eager m (acts : list (action T St)) ts ts' es rs, Forall no_pointers acts -> tshown ts -> ttags ts ->
  trun kern eager m ts acts = Some (Ok (ts', es, rs)) -> ttags ts'.
Proof.
  intros eager m acts. induction acts as [|a acts IH]; intros ts ts' es rs Np Sh Tt H; cbn [trun] in H.
  - injection H as <- <- <-. exact Tt.
  - destruct (tstep kern eager m ts a) as [[[[ts1 es1] r1]| |]|] eqn:E; try discriminate.
    destruct (trun kern eager m ts1 acts) as [[[[ts2 es2] rs2]| |]|] eqn:E2; try discriminate.
    cbn [bind] in H. injection H as <- <- <-. inversion Np; subst.
    eapply IH; [eauto|eapply tshown_step; eauto|eapply ttags_step; eauto|exact E2].
Qed.

Lemma ttags_initial : ttags tinitial.
Proof. unfold ttags. splits; auto; intros x; intros; destruct x; discriminate. Qed.

(** ** What the properties use *)

Lemma held_shown : forall eager m (acts : list (action T St)) ts es rs, Forall no_pointers acts ->
  trun kern eager m tinitial acts = Some (Ok (ts, es, rs)) ->
  (forall x v, nth_error (st_mats (b_state (t_state ts))) x = Some v -> reaches_as v (leaves_of (t_held ts) x)) /\
  (forall x y b c l k, x <> y -> nth_error (st_mats (b_state (t_state ts))) x = Some (MBase b) ->
     nth_error (st_mats (b_state (t_state ts))) y = Some (MBase c) -> In l (leaves_of (t_held ts) x) -> In k (leaves_of (t_held ts) y) ->
     l_tag l <> l_tag k).
Proof.
  intros eager m acts ts es rs Np H. split.
  - intros x v Hx. eapply held_exactly; eauto.
  - apply (ttags_run _ _ _ _ _ _ _ Np tshown_initial ttags_initial H).
Qed.

Lemma events_shown : forall eager m (acts : list (action T St)) ts es rs (o : call T St) ts' es' r, Forall no_pointers acts ->
  trun kern eager m tinitial acts = Some (Ok (ts, es, rs)) -> tstep kern eager m ts (Do o) = Some (Ok (ts', es', r)) ->
  (forall x a v q, r <> RSkipped -> reaches_data o = true -> In (x, a) (uses o) ->
     nth_error (st_mats (b_state (t_state ts))) x = Some v -> occupies v q ->
     exists w, accessed es' w q /\ (a = Exclusive -> w = is_writable v) /\ (a = Shared -> w = false)) /\
  (forall a i, (a < length (st_heap (b_state (t_state ts))))%nat ->
     hget (st_heap (b_state (t_state ts'))) a i <> hget (st_heap (b_state (t_state ts))) a i -> accessed es' true (a, i)).
Proof.
  intros eager m acts ts es rs o ts' es' r Np H Hs. eapply step_accesses; [|exact Hs]. eapply tshown_run; eauto. apply tshown_initial.
Qed.

Lemma made_shown : forall eager m (acts : list (action T St)) ts es rs (a : action T St) ts' es' r, Forall no_pointers acts -> no_pointers a ->
  trun kern eager m tinitial acts = Some (Ok (ts, es, rs)) -> tstep kern eager m ts a = Some (Ok (ts', es', r)) ->
  forall x b l, (length (st_mats (b_state (t_state ts))) <= x)%nat -> nth_error (st_mats (b_state (t_state ts'))) x = Some (MBase b) ->
    In l (leaves_of (t_held ts') x) -> makes es' (l_tag l) (l_region l) (l_write l) (l_owned l).
Proof.
  intros eager m acts ts es rs a ts' es' r Np Na H Hs x b l Hge Hx Hl.
  destruct (tshown_run _ _ _ _ _ _ _ Np tshown_initial H) as [[L _] _].
  destruct (step_makes _ _ _ _ _ _ _ Na Hs) as (_ & t & vs & new & Em & Eh & Tg).
  rewrite Em, nth_error_app2, <- L in Hx by lia. destruct (Tg _ _ Hx) as (_ & T2 & T3).
  rewrite Eh in Hl. replace x with (length (t_held ts) + (x - length (t_held ts)))%nat in Hl by lia. rewrite leaves_new, T2 in Hl.
  destruct Hl as [<-|[]]. exact T3.
Qed.

Lemma frees_shown : forall eager m (acts : list (action T St)) ts es rs (a : action T St) ts' es' r, Forall no_pointers acts ->
  trun kern eager m tinitial acts = Some (Ok (ts, es, rs)) -> tstep kern eager m ts a = Some (Ok (ts', es', r)) ->
  match a with
  | Drop x => forall v, nth_error (st_mats (b_state (t_state ts))) x = Some v -> forall i, frees i es' = owners i v
  | Do _ => r <> RPanicked -> forall i, frees i es' = 0%nat
  end.
Proof.
  intros eager m acts ts es rs a ts' es' r Np H Hs. eapply step_frees; [|exact Hs]. eapply tshown_run; eauto. apply tshown_initial.
Qed.
End Events.
