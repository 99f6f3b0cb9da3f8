(** * The parts of a split under the aliasing rules. *)

From Coq Require Import Lia ZifyBool ZifyNat ZifyN.
From Verif Require Import Machine MachineFacts Layouts Memory Matrix MatMul Spec MatrixSpec ExprSpec ProductSpec.
From Verif Require Import LayoutFacts MemoryFacts AccessFacts AccessProofs ConstructorProofs BlockProofs.
From Verif Require Import ExprProofs ProductProofs Program HistorySpec HistoryProofs HistorySafety Borrow BorrowFacts BorrowProofs.
From Verif Require Import AdmitProofs DeallocProofs.
From Verif Require Import Stacked StackedFacts StackedCell StackedNew StackedProofs StackedHistory.

Lemma access_in : forall w t s s', access_cell w t s = Some s' -> In t (map fst s).
Proof.
  intros w t s. induction s as [|[u p] s IH]; intros s' H; destruct w; cbn in H; try discriminate;
    destruct (Nat.eqb_spec u t) as [->|Hn]; cbn [map fst]; try (now left); cbn [andb] in H; right.
  - eapply (IH s'). exact H.
  - destruct (read_cell t s) eqn:E; [|discriminate]. eapply (IH s0). exact E.
Qed.

Section Split.
Context {T : Type} {SC : HScalar T} {St : Type}.
Variable kern : kernel T.

(** The last part that reaches the cell is on top. *)
Lemma parts_last : forall q raw s (vs : list (matrix T)) t top, (raw < t)%nat ->
  (top = [] \/ exists u, top = [(u, Unique)] /\ u <> raw) ->
  exists top', cell_events q (top ++ (raw, SharedReadWrite) :: s) (parts_events true raw t vs) =
      Some (top' ++ (raw, SharedReadWrite) :: s) /\
    ((exists i v, nth_error vs i = Some v /\ covers (region_of v) q = true /\
        (forall j w, (i < j)%nat -> nth_error vs j = Some w -> covers (region_of w) q = false) /\
        top' = [((t + i)%nat, Unique)]) \/
     ((forall i v, nth_error vs i = Some v -> covers (region_of v) q = false) /\ top' = top)).
Proof.
  intros q raw s vs. induction vs as [|w vs IH]; intros t top Ht Htop; cbn [parts_events cell_events].
  - exists top. split; auto. right. split; auto. intros [|i] v H; discriminate.
  - cbn [cell_event]. destruct (covers (region_of w) q) eqn:E.
    + assert (Ea : access_cell (may_write (view_permission true)) raw (top ++ (raw, SharedReadWrite) :: s) = Some ((raw, SharedReadWrite) :: s)).
      { destruct Htop as [->|(u & -> & Hu)].
        - apply access_top. reflexivity.
        - cbn. apply Nat.eqb_neq in Hu. rewrite Hu. cbn. now rewrite Nat.eqb_refl. }
      rewrite Ea. cbn [option_map].
      destruct (IH (S t) [(t, view_permission true)]) as (top' & E' & Hr); [lia|right; exists t; split; [reflexivity|lia]|].
      exists top'. split; [exact E'|]. destruct Hr as [(i & v & H1 & H2 & H3 & H4)|[H1 H2]].
      * left. exists (S i), v. splits; auto.
        -- intros [|j] w' Hj Hw; [lia|]. apply (H3 j); auto. lia.
        -- rewrite H4. do 2 f_equal. lia.
      * left. exists O, w. splits; auto.
        -- intros [|j] w' Hj Hw; [lia|]. now apply (H1 j).
        -- rewrite H2, Nat.add_0_r. reflexivity.
    + destruct (IH (S t) top) as (top' & E' & Hr); [lia|exact Htop|]. exists top'. split; [exact E'|].
      destruct Hr as [(i & v & H1 & H2 & H3 & H4)|[H1 H2]].
      * left. exists (S i), v. splits; auto.
        -- intros [|j] w' Hj Hw; [lia|]. apply (H3 j); auto. lia.
        -- rewrite H4. do 2 f_equal. lia.
      * right. split; auto. intros [|i] v Hv; cbn in Hv; [injection Hv as <-; exact E|eauto].
Qed.

(** After a split, a use of a part breaks the rules exactly if a later part reaches into it. *)
Lemma split_use : forall eager m ts es x at_ ts1 es1 k (o : call T St) a ts2 es2 r v,
  ghost ts es -> tstep kern eager m ts (Do (@CSplit T St x at_)) = Some (Ok (ts1, es1, RNew)) ->
  uses o = [((length (st_mats (b_state (t_state ts))) + k)%nat, a)] -> a <> Moved -> reaches_data o = true ->
  tstep kern eager m ts1 (Do o) = Some (Ok (ts2, es2, r)) -> r <> RNew -> r <> RSkipped ->
  nth_error (st_mats (b_state (t_state ts1))) (length (st_mats (b_state (t_state ts))) + k) = Some v ->
  (respects (es ++ es1 ++ es2) <->
   forall j w, (k < j)%nat -> nth_error (st_mats (b_state (t_state ts1))) (length (st_mats (b_state (t_state ts))) + j) = Some w -> ~ overlap v w).
Proof.
  intros eager m ts es x at_ ts1 es1 k o a ts2 es2 r v G H1 Hu Ha Hd H2 Hr Hr' Hv.
  unfold tstep in H1. destruct (bstep kern m (t_state ts) (Do (@CSplit T St x at_))) as [[[bs1 r1]| |]|] eqn:E1; try discriminate. cbn [bind] in H1.
  destruct (action_events eager (t_held ts) (t_next ts) (b_state (t_state ts)) (b_state bs1) (Do (@CSplit T St x at_)) r1) as [[e1 new] k1] eqn:Ea1.
  injection H1 as <- <- ->. cbn [t_state] in *.
  apply bstep_inv in E1. destruct E1 as [(o' & bt & st' & Eo & A & Hs & ->)|(y & bt & Eo & _)]; [|discriminate]. injection Eo as <-.
  cbn [b_state b_slots] in *.
  assert (K : exists b b0 b1 b2 b3, lookup_mut (b_state (t_state ts)) x = Some b /\
    split_in_four_mut m b at_ = Ok (b0, b1, b2, b3) /\ st_mats st' = st_mats (b_state (t_state ts)) ++ [MBase b0; MBase b1; MBase b2; MBase b3]).
  { pose proof (step_kinds kern m (b_state (t_state ts)) (@CSplit T St x at_) st' RNew I Hs) as K.
    inversion K as [? Hn|? ? ? ? ? Hret|? ? ? Hret Hder|x' at' b b0 b1 b2 b3 Eo Hx _ Hs' Eh Em]; subst; try congruence.
    - specialize (Hret []). discriminate.
    - inversion Hder.
    - injection Eo as <- <-. eauto 10. }
  destruct K as (b & b0 & b1 & b2 & b3 & Hb & Hs' & Em). remember ([MBase b0; MBase b1; MBase b2; MBase b3] : list (matrix T)) as vs eqn:Evs.
  cbn [action_events new_events] in Ea1. rewrite Em, skipn_app, skipn_all, Nat.sub_diag in Ea1. cbn [app skipn] in Ea1.
  pose proof (f_equal (fun z => fst (fst z)) Ea1) as Ee. pose proof (f_equal (fun z => snd (fst z)) Ea1) as En. cbn [fst snd] in Ee, En. clear Ea1. unfold tstep in H2. cbn [t_state t_held t_next] in H2.
  destruct (bstep kern m _ (Do o)) as [[[bs2 r2]| |]|] eqn:E2; try discriminate. cbn [bind] in H2.
  destruct (action_events eager (t_held ts ++ new) (t_next ts + k1) _ (b_state bs2) (Do o) r2) as [[e2 new2] k2] eqn:Ea2.
  injection H2 as <- <- ->.
  assert (Hk : nth_error vs k = Some v).
  { rewrite Em, nth_error_app2 in Hv by lia. now replace (_ + k - _)%nat with k in Hv by lia. }
  assert (Hj : forall j w, nth_error (st_mats st') (length (st_mats (b_state (t_state ts))) + j) = Some w <-> nth_error vs j = Some w).
  { intros j w. rewrite Em, nth_error_app2 by lia. now replace (_ + j - _)%nat with j by lia. }
  assert (Lk : leaves_of (t_held ts ++ new) (length (st_mats (b_state (t_state ts))) + k) = [mkLeaf (S (t_next ts) + k) (region_of v) true false]).
  { rewrite <- (g_held _ _ G), leaves_new, <- En. now apply parts_leaves_at. }
  assert (Ee2 : e2 = [Access (access_writes a (mkLeaf (S (t_next ts) + k) (region_of v) true false)) (S (t_next ts) + k) (region_of v)]).
  { cbn [action_events] in Ea2. rewrite Hu in Ea2. cbn [flat_map] in Ea2. unfold use_events in Ea2. cbn [fst snd] in Ea2.
    rewrite Hd, orb_true_r, Lk, app_nil_r in Ea2. cbn [map l_tag l_region] in Ea2.
    assert (Hl : late_events (t_held ts ++ new) (t_next ts + k1)%nat o = ([], O)) by (destruct o; try reflexivity; discriminate Hu).
    rewrite Hl in Ea2.
    destruct r; try (now elim Hr); try (now elim Hr'); try (injection Ea2 as <- _ _; now rewrite ?app_nil_r).
    destruct a; try (now elim Ha); injection Ea2 as <- _ _; reflexivity. }
  destruct (admitted_ready _ _ _ (proj1 (g_loans _ _ G)) A) as (R & _ & V1 & _).
  pose proof (lookup_mut_writable _ _ _ Hb) as [Hb' Hw]. destruct (g_base _ _ G _ _ Hb') as [tb Hl].
  assert (Cell : forall q, covers (region_of v) q = true ->
     (cell_events q [] (es ++ e1 ++ e2) <> None <-> forall j w, (k < j)%nat -> nth_error vs j = Some w -> covers (region_of w) q = false)).
  { intros q Hq. destruct (g_cells _ _ G q) as (s & Es & I). rewrite cell_events_app, Es, cell_events_app, <- Ee.
    set (L1 := fun x0 => is_live (fold_left use (uses (@CSplit T St x at_)) (b_slots (t_state ts))) x0 = true) in *.
    assert (I1 : cellinv L1 (is_base (st_mats (b_state (t_state ts)))) (b_slots (t_state ts)) (t_held ts) (t_next ts) q s) by (eapply ci_weaken; eauto).
    destruct (reached_ok L1 _ _ _ _ q (uses (@CSplit T St x at_)) eager (@CSplit T St x at_) (uses (@CSplit T St x at_)) R (incl_refl _) s I1) as (s1 & X1 & J1).
    rewrite cell_events_app, X1, cell_events_app. unfold raw_events. rewrite Hl. cbn [map cell_events cell_event base_leaf l_region l_tag].
    assert (Cx : covers (c_region (bm_data b)) q = true).
    { pose proof (split_within _ _ _ _ _ _ _ Hs') as W. rewrite Forall_forall in W. apply nth_error_In in Hk. rewrite Evs in Hk.
      apply (within_covers (region_of v)); auto. cbn [In] in Hk. destruct Hk as [<-|[<-|[<-|[<-|[]]]]]; apply W; cbn; auto 6. }
    rewrite Cx.
    destruct (ci_access L1 _ _ _ _ q s1 (uses (@CSplit T St x at_)) x Exclusive true (base_leaf tb b) J1 R) as (s2 & p & X2 & J2 & _).
    { now left. }
    { split; [rewrite Hl; now left|exact Cx]. }
    { intros _. split; [|discriminate]. unfold strong, base_leaf. cbn [l_write is_writable] in *. now rewrite Hw. }
    cbn [raw_permission may_write base_leaf l_tag] in X2 |- *. rewrite X2. cbn [option_map].
    destruct (parts_last q (t_next ts) s2 vs (S (t_next ts)) []) as (top & X3 & X4); [lia|now left|]. cbn [app] in X3.
    match goal with |- context [cell_events q ?z (parts_events true ?a ?b vs)] =>
      replace (cell_events q z (parts_events true a b vs)) with (Some (top ++ (t_next ts, SharedReadWrite) :: s2)) by (symmetry; exact X3) end.
    rewrite Ee2. cbn [cell_events cell_event]. rewrite Hq.
    destruct X4 as [(i & u & Hi & Hci & Hlast & ->)|[Hn _]]; [|rewrite (Hn k v Hk) in Hq; discriminate].
    destruct (Nat.eq_dec i k) as [->|Hne].
    - match goal with |- context [access_cell ?w ?t ?z] => assert (X5 : access_cell w t z = Some z) by (apply access_top; reflexivity); rewrite X5 end. split; [|discriminate]. intros _ j w Hj' Hjw. now apply (Hlast j).
    - assert (Hlt : (k < i)%nat).
      { destruct (Nat.lt_ge_cases k i) as [|Hge]; auto. rewrite (Hlast k v) in Hq; auto; [discriminate|lia]. }
      split.
      + intros Hno. exfalso. apply Hno. match goal with |- match ?z with Some _ => _ | None => _ end = None => destruct z as [s3|] eqn:X5; [|reflexivity] end. exfalso. apply access_in in X5.
        cbn [app map fst In] in X5. destruct X5 as [X5|[X5|X5]]; [lia|lia|].
        apply in_map_iff in X5. destruct X5 as ([t p0] & X5 & X6). apply (ci_tags _ _ _ _ _ _ _ J2) in X6. cbn in X5. lia.
      + intros Hall. rewrite (Hall i u Hlt Hi) in Hci. discriminate. }
  split.
  - intros Hre j w Hjk Hw' (q & Q1 & Q2). apply Hj in Hw'. pose proof (proj1 (Cell q Q1) (Hre q) j w Hjk Hw'). congruence.
  - intros Hno q. destruct (covers (region_of v) q) eqn:Eq.
    + apply Cell; auto. intros j w Hjk Hw'. destruct (covers (region_of w) q) eqn:E; auto. elim (Hno j w Hjk); [now apply Hj|]. exists q. auto.
    + destruct (g_cells _ _ G q) as (s & Es & I). rewrite cell_events_app, Es, cell_events_app, <- Ee.
      set (L1 := fun x0 => is_live (fold_left use (uses (@CSplit T St x at_)) (b_slots (t_state ts))) x0 = true) in *.
      assert (I1 : cellinv L1 (is_base (st_mats (b_state (t_state ts)))) (b_slots (t_state ts)) (t_held ts) (t_next ts) q s) by (eapply ci_weaken; eauto).
      destruct (reached_ok L1 _ _ _ _ q (uses (@CSplit T St x at_)) eager (@CSplit T St x at_) (uses (@CSplit T St x at_)) R (incl_refl _) s I1) as (s1 & X1 & J1).
      rewrite cell_events_app, X1, cell_events_app. unfold raw_events. rewrite Hl. cbn [map cell_events cell_event base_leaf l_region l_tag].
      assert (Fin : forall s3, cell_events q s3 e2 = Some s3) by (intros s3; rewrite Ee2; cbn [cell_events cell_event]; now rewrite Eq).
      destruct (covers (c_region (bm_data b)) q) eqn:Cx.
      * destruct (ci_access L1 _ _ _ _ q s1 (uses (@CSplit T St x at_)) x Exclusive true (base_leaf tb b) J1 R) as (s2 & p & X2 & J2 & _).
        { now left. }
        { split; [rewrite Hl; now left|exact Cx]. }
        { intros _. split; [|discriminate]. unfold strong, base_leaf. cbn [l_write is_writable] in *. now rewrite Hw. }
        cbn [raw_permission may_write base_leaf l_tag] in X2 |- *. rewrite X2. cbn [option_map].
        destruct (parts_last q (t_next ts) s2 vs (S (t_next ts)) []) as (top & X3 & X4); [lia|now left|]. cbn [app] in X3.
    match goal with |- context [cell_events q ?z (parts_events true ?a ?b vs)] =>
      replace (cell_events q z (parts_events true a b vs)) with (Some (top ++ (t_next ts, SharedReadWrite) :: s2)) by (symmetry; exact X3) end.
        rewrite Fin. discriminate.
      * rewrite parts_none; [rewrite Fin; discriminate|]. intros w Hw'.
        destruct (covers (region_of w) q) eqn:E; auto. pose proof (split_within _ _ _ _ _ _ _ Hs') as W. rewrite Forall_forall in W.
        assert (Wi : within (region_of w) (c_region (bm_data b))).
        { rewrite Evs in Hw'. cbn [In] in Hw'. destruct Hw' as [<-|[<-|[<-|[<-|[]]]]]; apply W; cbn; auto 6. }
        apply (within_covers _ _ q Wi) in E. congruence.
Qed.

Definition quarter_list (b : base_matrix) (s : N * N) : list (matrix T) :=
  map (fun k => MBase (pick (quarters b s) k)) [Q0; Q1; Q2; Q3].

(** A part reaches into the one to its right if the two have two rows. *)
Lemma quarters_overlap : forall b D s k v, bm_layout b = RowMajor D -> interior D s ->
  nth_error (quarter_list b s) k = Some v ->
  ((forall j w, (k < j)%nat -> nth_error (quarter_list b s) j = Some w -> ~ overlap v w) <->
   ~ (k = 0%nat /\ (2 <= fst s)%N) /\ ~ (k = 2%nat /\ (fst s + 2 <= fst D)%N)).
Proof.
  intros b D s k v Hl Hs Hk. pose proof (fun k => quarter_region b D s k Hl) as R. pose proof Hs as (H1 & H2 & H3 & H4).
  destruct D as [A B], s as [s0 s1]. cbn [fst snd] in *.
  assert (Ov : forall k1 k2, overlap (MBase (pick (quarters b (s0, s1)) k1) : matrix T) (MBase (pick (quarters b (s0, s1)) k2)) <->
     exists z, (fst (quarter_origin (s0, s1) k1) * B + snd (quarter_origin (s0, s1) k1) <= z /\
       z < fst (quarter_origin (s0, s1) k1) * B + snd (quarter_origin (s0, s1) k1) +
           ((fst (quarter_dim (A, B) (s0, s1) k1) - 1) * B + (snd (quarter_dim (A, B) (s0, s1) k1) - 1) + 1) /\
       fst (quarter_origin (s0, s1) k2) * B + snd (quarter_origin (s0, s1) k2) <= z /\
       z < fst (quarter_origin (s0, s1) k2) * B + snd (quarter_origin (s0, s1) k2) +
           ((fst (quarter_dim (A, B) (s0, s1) k2) - 1) * B + (snd (quarter_dim (A, B) (s0, s1) k2) - 1) + 1))%N).
  { intros k1 k2. unfold overlap, covers. cbn [region_of]. rewrite !R. cbn [r_alloc r_lo r_len]. split.
    - intros ([a z] & X1 & X2). cbn [fst snd] in X1, X2. exists (z - r_lo (c_region (bm_data b)))%N.
      generalize dependent (fst (quarter_origin (s0, s1) k1) * B)%N. generalize dependent (fst (quarter_origin (s0, s1) k2) * B)%N.
      generalize ((fst (quarter_dim (A, B) (s0, s1) k1) - 1) * B)%N. generalize ((fst (quarter_dim (A, B) (s0, s1) k2) - 1) * B)%N. intros. lia.
    - intros (z & X). exists (r_alloc (c_region (bm_data b)), r_lo (c_region (bm_data b)) + z)%N. cbn [fst snd]. rewrite Nat.eqb_refl.
      generalize dependent (fst (quarter_origin (s0, s1) k1) * B)%N. generalize dependent (fst (quarter_origin (s0, s1) k2) * B)%N.
      generalize ((fst (quarter_dim (A, B) (s0, s1) k1) - 1) * B)%N. generalize ((fst (quarter_dim (A, B) (s0, s1) k2) - 1) * B)%N. intros. lia. }
  assert (Nth : forall j w, nth_error (quarter_list b (s0, s1)) j = Some w ->
     (j = 0%nat /\ w = MBase (pick (quarters b (s0, s1)) Q0)) \/ (j = 1%nat /\ w = MBase (pick (quarters b (s0, s1)) Q1)) \/
     (j = 2%nat /\ w = MBase (pick (quarters b (s0, s1)) Q2)) \/ (j = 3%nat /\ w = MBase (pick (quarters b (s0, s1)) Q3))).
  { intros [|[|[|[|[|j]]]]] w H; cbn in H; try discriminate; injection H as <-; auto. }
  assert (M1 : (2 <= s0 -> 1 * B <= (s0 - 1) * B)%N) by (intros; apply N.mul_le_mono_r; lia).
  assert (M2 : (s0 + 2 <= A -> 1 * B <= (A - s0 - 1) * B)%N) by (intros; apply N.mul_le_mono_r; lia).
  assert (M3 : (s0 * B = (s0 - 1) * B + B)%N) by nia.
  split.
  - intros Hno. split.
    + intros [-> X]. apply Nth in Hk. assert (v = MBase (pick (quarters b (s0, s1)) Q0)) as -> by (destruct Hk as [[]|[[]|[[]|[]]]]; auto; discriminate).
      apply (Hno 1%nat (MBase (pick (quarters b (s0, s1)) Q1))); [lia|reflexivity|]. apply Ov. exists s1. specialize (M1 X).
      cbn [quarter_dim quarter_origin fst snd]. lia.
    + intros [-> X]. apply Nth in Hk. assert (v = MBase (pick (quarters b (s0, s1)) Q2)) as -> by (destruct Hk as [[]|[[]|[[]|[]]]]; auto; discriminate).
      apply (Hno 3%nat (MBase (pick (quarters b (s0, s1)) Q3))); [lia|reflexivity|]. apply Ov. exists (s0 * B + s1)%N. specialize (M2 X).
      cbn [quarter_dim quarter_origin fst snd]. lia.
  - intros [N1 N2] j w Hj Hw Hov. apply Nth in Hk, Hw.
    destruct Hk as [[-> ->]|[[-> ->]|[[-> ->]|[-> ->]]]]; destruct Hw as [[-> ->]|[[-> ->]|[[-> ->]|[-> ->]]]]; try lia;
      apply Ov in Hov; destruct Hov as (z & Hz); cbn [quarter_dim quarter_origin fst snd] in Hz.
    + assert (s0 = 1%N) by lia. subst s0. lia.
    + lia.
    + lia.
    + lia.
    + lia.
    + assert (A = s0 + 1)%N by lia. subst A. replace (s0 + 1 - s0 - 1)%N with 0%N in Hz by lia. lia.
Qed.

Lemma split_breaks : forall eager m (acts : list (action T St)) ts es rs x at_ b D ts1 es1 k (o : call T St) a ts2 es2 r,
  Forall no_pointers acts -> apart_splits kern m binitial acts -> trun kern eager m tinitial acts = Some (Ok (ts, es, rs)) ->
  lookup_mut (b_state (t_state ts)) x = Some b -> base_valid (st_heap (b_state (t_state ts))) b ->
  bm_layout b = RowMajor D -> interior D at_ ->
  tstep kern eager m ts (Do (@CSplit T St x at_)) = Some (Ok (ts1, es1, RNew)) ->
  (k < 4)%nat -> uses o = [((length (st_mats (b_state (t_state ts))) + k)%nat, a)] -> a <> Moved -> reaches_data o = true ->
  tstep kern eager m ts1 (Do o) = Some (Ok (ts2, es2, r)) -> r <> RNew -> r <> RSkipped ->
  (respects (es ++ es1 ++ es2) <-> ~ (k = 0%nat /\ (2 <= fst at_)%N) /\ ~ (k = 2%nat /\ (fst at_ + 2 <= fst D)%N)).
Proof.
  intros eager m acts ts es rs x at_ b D ts1 es1 k o a ts2 es2 r Np Ap H Hb Hv Hl Hs H1 Hk Hu Ha Hd H2 Hr Hr'.
  pose proof (ghost_run _ _ _ _ _ _ _ _ _ ghost_initial Np Ap H) as G. cbn [app] in G.
  assert (Em : st_mats (b_state (t_state ts1)) = st_mats (b_state (t_state ts)) ++ quarter_list b at_).
  { unfold tstep in H1. destruct (bstep kern m (t_state ts) (Do (@CSplit T St x at_))) as [[[bs1 r1]| |]|] eqn:E1; try discriminate. cbn [bind] in H1.
    destruct (action_events eager (t_held ts) (t_next ts) (b_state (t_state ts)) (b_state bs1) (Do (@CSplit T St x at_)) r1) as [[e1 new] k1].
    injection H1 as <- _ ->. cbn [t_state]. apply bstep_inv in E1. destruct E1 as [(o' & bt & st' & Eo & A & Hst & ->)|(y & bt & Eo & _)]; [|discriminate]. injection Eo as <-.
    cbn [b_state]. pose proof (step_kinds kern m (b_state (t_state ts)) (@CSplit T St x at_) st' RNew I Hst) as K.
    inversion K as [? Hn|? ? ? ? ? Hret|? ? ? Hret Hder|x' at' b' b0 b1 b2 b3 Eo Hx _ Hs' Eh Em]; subst; try congruence.
    - specialize (Hret []). discriminate.
    - inversion Hder.
    - injection Eo as <- <-. rewrite Em. f_equal. rewrite Hb in Hx. injection Hx as <-.
      destruct (split_ok m _ b D at_ Hv Hl Hs) as [E _]. rewrite E in Hs'. unfold quarters in Hs'. injection Hs' as <- <- <- <-. reflexivity. }
  assert (Hj : forall j, nth_error (st_mats (b_state (t_state ts1))) (length (st_mats (b_state (t_state ts))) + j) = nth_error (quarter_list b at_) j).
  { intros j. rewrite Em, nth_error_app2 by lia. f_equal. lia. }
  destruct (nth_error (quarter_list b at_) k) as [v|] eqn:Ek; [|apply nth_error_None in Ek; cbn in Ek; lia].
  rewrite (split_use eager m ts es x at_ ts1 es1 k o a ts2 es2 r v G H1 Hu Ha Hd H2 Hr Hr'); [|now rewrite Hj].
  rewrite <- (quarters_overlap b D at_ k v Hl Hs Ek). split; intros X j w Hjk Hw; apply (X j w Hjk); [rewrite Hj|rewrite <- Hj]; exact Hw.
Qed.

Lemma two_rows : forall m (st : state T) x b D at_, lookup_mut st x = Some b -> base_valid (st_heap st) b ->
  bm_layout b = RowMajor D -> interior D at_ ->
  (apart_split m st (Do (@CSplit T St x at_)) <-> fst at_ = 1%N /\ fst D = 2%N).
Proof.
  intros m st x b D at_ Hb Hv Hl Hs. destruct (split_ok m _ b D at_ Hv Hl Hs) as [E _]. pose proof Hs as (H1 & H2 & _).
  assert (Q : ForallOrdPairs (fun v w => ~ overlap v w) (quarter_list b at_) <-> fst at_ = 1%N /\ fst D = 2%N).
  { pose proof (fun k v => quarters_overlap b D at_ k v Hl Hs) as X. split.
    - intros F. assert (Y : forall k v, nth_error (quarter_list b at_) k = Some v -> forall j w, (k < j)%nat ->
         nth_error (quarter_list b at_) j = Some w -> ~ overlap v w).
      { revert F. generalize (quarter_list b at_). intros l F. induction F as [|v l Hv' F IH]; intros k u Hk j w Hj Hw; [destruct k; discriminate|].
        destruct j as [|j]; [lia|]. destruct k as [|k]; cbn in Hk, Hw.
        - injection Hk as <-. rewrite Forall_forall in Hv'. apply Hv'. eapply nth_error_In; eauto.
        - apply (IH k u Hk j w); auto. lia. }
      pose proof (proj1 (X 0%nat _ eq_refl) (Y 0%nat _ eq_refl)). pose proof (proj1 (X 2%nat _ eq_refl) (Y 2%nat _ eq_refl)). lia.
    - intros [A1 A2]. assert (Y : forall k v, nth_error (quarter_list b at_) k = Some v -> forall j w, (k < j)%nat ->
         nth_error (quarter_list b at_) j = Some w -> ~ overlap v w) by (intros k v Hk; apply (proj2 (X k v Hk)); rewrite A1, A2; split; intros [_ Z]; clear - Z; lia).
      revert Y. generalize (quarter_list b at_). induction l as [|v l IH]; intros Y; constructor.
      + rewrite Forall_forall. intros w Hw. apply In_nth_error in Hw. destruct Hw as [j Hj].
        apply (Y 0%nat v eq_refl (S j) w); auto. lia.
      + apply IH. intros k u Hk j w Hj Hw. apply (Y (S k) u Hk (S j) w); auto. lia. }
  rewrite <- Q. cbn [apart_split]. split.
  - intros Z. unfold quarter_list. cbn [map]. apply (Z b _ _ _ _ Hb E).
  - intros Z b' b0 b1 b2 b3 Hb' E'. rewrite Hb in Hb'. injection Hb' as <-. rewrite E in E'. unfold quarters in E'. injection E' as <- <- <- <-. exact Z.
Qed.

Lemma no_splits_apart : forall m (acts : list (action T St)) bs, Forall no_split acts -> apart_splits kern m bs acts.
Proof.
  intros m acts. induction acts as [|a acts IH]; intros bs F; cbn [apart_splits]; auto. inversion F as [|? ? F1 F2]; subst. split; auto.
  destruct a as [[]|]; cbn; auto. destruct F1.
Qed.
End Split.
