(** * The rules of the paper: what the stricter rules allow, they allow, and a split breaks them, too. *)

From Coq Require Import Lia ZifyBool ZifyNat ZifyN.
From Verif Require Import Machine MachineFacts Layouts Memory Matrix MatMul Spec MatrixSpec ExprSpec ProductSpec.
From Verif Require Import LayoutFacts MemoryFacts AccessFacts AccessProofs ConstructorProofs BlockProofs.
From Verif Require Import ExprProofs ProductProofs Program HistorySpec HistoryProofs HistorySafety Borrow BorrowFacts BorrowProofs.
From Verif Require Import AdmitProofs DeallocProofs.
From Verif Require Import Stacked StackedFacts StackedCell StackedNew StackedProofs StackedHistory StackedSplit StackedEvents.

Definition mark (i : tag * permission) : tag * option permission := (fst i, Some (snd i)).

Lemma sub_in_nil : forall A (s : list A), sub [] s.
Proof. intros A s. induction s; constructor; auto. Qed.

Lemma sub_cut : forall A (a b s : list A), sub (a ++ b) s -> sub b s.
Proof.
  intros A a b s H. remember (a ++ b) as c eqn:E. revert a E. induction H as [|x s' s H IH|x s' s H IH]; intros a E.
  - destruct a; [|discriminate]. cbn in E. subst b. constructor.
  - destruct a as [|y a]; cbn in E.
    + subst b. now constructor.
    + injection E as -> ->. constructor. now apply (IH a).
  - constructor. now apply (IH a).
Qed.

Lemma read_sim : forall t s r s', sub (map mark s) r -> read_cell t s = Some s' ->
  exists r', sb_read t r = Some r' /\ sub (map mark s') r'.
Proof.
  intros t s r s' H. remember (map mark s) as ms eqn:E. revert s s' E.
  induction H as [|x ms r H IH|x ms r H IH]; intros s s' E Hr.
  - destruct s; discriminate.
  - destruct s as [|[u p] s]; [discriminate|]. cbn [map] in E. injection E as -> ->. cbn [read_cell] in Hr. cbn [sb_read mark fst snd].
    destruct (Nat.eqb u t); cbn [andb].
    + injection Hr as <-. eexists. split; [reflexivity|]. cbn [map]. now constructor.
    + destruct (read_cell t s) as [s2|] eqn:E2; [|discriminate]. injection Hr as <-.
      destruct (IH s s2 eq_refl E2) as (r' & -> & S). eexists. split; [reflexivity|]. destruct p; cbn [map mark fst snd]; now constructor.
  - destruct x as [u p]. cbn [sb_read]. destruct (Nat.eqb u t && _) eqn:Ec.
    + eexists. split; [reflexivity|]. constructor. subst ms. clear IH.
      assert (X : sub (map mark s') (map mark s)).
      { apply sub_map. clear - Hr. revert s' Hr. induction s as [|[v q] s IH]; intros s' Hr; [discriminate|]. cbn [read_cell] in Hr.
        destruct (Nat.eqb v t); [injection Hr as <-; apply sub_refl|]. destruct (read_cell t s) as [s2|]; [|discriminate].
        injection Hr as <-. specialize (IH s2 eq_refl). destruct q; now constructor. }
      clear - H X. revert X. generalize (map mark s'). induction H as [|x a b H IH|x a b H IH]; intros c X; auto.
      * inversion X; subst; constructor; auto.
      * constructor. auto.
    + destruct (IH s s' E Hr) as (r' & -> & S). eexists. split; [reflexivity|]. now constructor.
Qed.

Lemma group_sim : forall t s r s', sub (map mark s) r -> write_cell t s = Some s' ->
  exists r' o, sb_group t r = Some (r', o) /\ sub (map mark s') r'.
Proof.
  intros t s r s' H. remember (map mark s) as ms eqn:E. revert s s' E.
  induction H as [|x ms r H IH|x ms r H IH]; intros s s' E Hr.
  - destruct s; discriminate.
  - destruct s as [|[u p] s]; [discriminate|]. cbn [map] in E. injection E as -> ->. cbn [write_cell] in Hr. cbn [sb_group mark fst snd].
    assert (X : forall z : option (marked * bool), (exists r' o, z = Some (r', o) /\ sub (map mark s') r') -> exists r' o,
      match z with None => None | Some (s'', open) => Some (if (open && match p with SharedReadWrite => true | _ => false end)%bool then ((u, Some p) :: s'', true) else (s'', false)) end
        = Some (r', o) /\ sub (map mark s') r').
    { intros z (r' & o & -> & S). destruct (o && _)%bool; do 2 eexists; (split; [reflexivity|]); auto. now constructor. }
    destruct (Nat.eqb u t); destruct p; cbn [andb] in Hr |- *;
      first [injection Hr as <-; do 2 eexists; split; [reflexivity|]; cbn [map]; now constructor | apply X; now apply (IH s)].
  - destruct x as [u p]. cbn [sb_group]. destruct (Nat.eqb u t && _) eqn:Ec.
    + do 2 eexists. split; [reflexivity|]. constructor. subst ms. clear IH.
      assert (X : exists a, s = a ++ s').
      { clear - Hr. revert s' Hr. induction s as [|[v q] s IH]; intros s' Hr; [discriminate|]. cbn [write_cell] in Hr.
        destruct (_ && _); [injection Hr as <-; now exists []|]. destruct (IH _ Hr) as [a ->]. now exists ((v, q) :: a). }
      destruct X as [a ->]. rewrite map_app in H. eapply sub_cut. exact H.
    + destruct (IH s s' E Hr) as (r' & o & -> & S). destruct (o && _); do 2 eexists; (split; [reflexivity|]); auto. now constructor.
Qed.

Lemma access_sim : forall w t s r s', sub (map mark s) r -> access_cell w t s = Some s' ->
  exists r', sb_access w t r = Some r' /\ sub (map mark s') r'.
Proof.
  intros [] t s r s' H Ha; cbn [access_cell sb_access] in *.
  - destruct (group_sim _ _ _ _ H Ha) as (r' & o & -> & S). exists r'. auto.
  - eapply read_sim; eauto.
Qed.

Lemma event_sim : forall q e s r s', sub (map mark s) r -> cell_event q s e = Some s' ->
  exists r', sb_event q r e = Some r' /\ sub (map mark s') r'.
Proof.
  intros q e s r s' H He. destruct e as [t rg|w t rg|t n p rg|t rg]; cbn [cell_event sb_event] in *; destruct (covers rg q);
    try (injection He as <-; eexists; (split; [reflexivity|]); auto; apply sub_refl).
  - eapply access_sim; eauto.
  - destruct (access_cell (may_write p) t s) as [s2|] eqn:E; [|discriminate]. injection He as <-.
    destruct (access_sim _ _ _ _ _ H E) as (r' & -> & S). eexists. split; [reflexivity|]. cbn [map mark fst snd]. now constructor.
  - destruct (write_cell t s) as [s2|] eqn:E; [|discriminate]. injection He as <-.
    destruct (access_sim true _ _ _ _ H E) as (r' & -> & S). eexists. split; [reflexivity|]. constructor.
Qed.

Lemma events_sim : forall q es s r s', sub (map mark s) r -> cell_events q s es = Some s' ->
  exists r', sb_events q r es = Some r' /\ sub (map mark s') r'.
Proof.
  intros q es. induction es as [|e es IH]; intros s r s' H He; cbn [cell_events sb_events] in *.
  - injection He as <-. eauto.
  - destruct (cell_event q s e) as [s1|] eqn:E; [|discriminate]. destruct (event_sim _ _ _ _ _ H E) as (r1 & -> & S). eauto.
Qed.

Lemma stricter : forall es, respects es -> sb_respects es.
Proof.
  intros es H q. destruct (cell_events q [] es) as [s|] eqn:E; [|now elim (H q)].
  destruct (events_sim q es [] [] s (sub_refl _ _) E) as (r & -> & _). discriminate.
Qed.

(** ** Tags *)

Lemma sb_app : forall q es1 es2 s,
  sb_events q s (es1 ++ es2) = match sb_events q s es1 with Some s' => sb_events q s' es2 | None => None end.
Proof. intros q es1. induction es1 as [|e es IH]; intros es2 s; cbn; auto. destruct (sb_event q s e); auto. Qed.

Lemma sb_access_tags : forall w t s s', sb_access w t s = Some s' ->
  In t (map fst s) /\ forall u, In u (map fst s') -> In u (map fst s).
Proof.
  intros [] t s s' H; cbn [sb_access] in H.
  - assert (X : forall s' o, sb_group t s = Some (s', o) -> In t (map fst s) /\ forall u, In u (map fst s') -> In u (map fst s)).
    { clear. induction s as [|[u p] s IH]; intros s' o H; cbn [sb_group] in H; [discriminate|].
      destruct (Nat.eqb u t && _) eqn:E.
      - injection H as <- <-. split; auto. left. cbn. lia.
      - destruct (sb_group t s) as [[s2 o2]|]; [|discriminate]. destruct (IH s2 o2 eq_refl) as [I1 I2].
        split; [now right|]. intros v Hv. destruct (o2 && _) in H; injection H as <- <-; [|right; auto].
        destruct Hv as [Hv|Hv]; [now left|right; auto]. }
    destruct (sb_group t s) as [[s2 o]|] eqn:E; [|discriminate]. injection H as <-. now apply (X s2 o).
  - revert s' H. induction s as [|[u p] s IH]; intros s' H; cbn [sb_read] in H; [discriminate|].
    destruct (Nat.eqb u t && _) eqn:E.
    + injection H as <-. split; auto. left. cbn. lia.
    + destruct (sb_read t s) as [s2|]; [|discriminate]. destruct (IH s2 eq_refl) as [I1 I2]. injection H as <-.
      split; [now right|]. intros v [Hv|Hv]; [now left|right; auto].
Qed.

(** The tags that events make are below [n]. *)
Definition below_tag (n : tag) (e : event) : Prop :=
  match e with Allocate t _ => (t < n)%nat | Reborrow _ t _ _ => (t < n)%nat | _ => True end.

Lemma sb_tags : forall q n es s s', Forall (below_tag n) es -> (forall u, In u (map fst s) -> (u < n)%nat) ->
  sb_events q s es = Some s' -> forall u, In u (map fst s') -> (u < n)%nat.
Proof.
  intros q n es. induction es as [|e es IH]; intros s s' F B H; cbn [sb_events] in H.
  - injection H as <-. exact B.
  - inversion F as [|? ? F1 F2]; subst. destruct (sb_event q s e) as [s1|] eqn:E; [|discriminate]. apply (IH s1 s' F2); auto.
    destruct e as [t r|w t r|t v p r|t r]; cbn [sb_event below_tag] in *; destruct (covers r q); try (injection E as <-; exact B).
    + injection E as <-. intros u [<-|[]]. exact F1.
    + apply sb_access_tags in E. intros u Hu. now apply B, E.
    + destruct (sb_access (may_write p) t s) as [s2|] eqn:E2; [|discriminate]. injection E as <-. apply sb_access_tags in E2.
      intros u [<-|Hu]; [exact F1|]. now apply B, E2.
    + destruct (sb_access true t s); [|discriminate]. injection E as <-. intros u [].
Qed.

Section Rules.
Context {T : Type} {SC : HScalar T} {St : Type}.
Variable kern : kernel T.

Lemma below_map : forall A (f : A -> event) n ls, (forall l, below_tag n (f l)) -> Forall (below_tag n) (map f ls).
Proof. intros A f n ls H. apply Forall_forall. intros e He. apply in_map_iff in He. destruct He as (l & <- & _). auto. Qed.

Lemma below_parts : forall mut raw (vs : list (matrix T)) t n, (t + length vs <= n)%nat -> Forall (below_tag n) (parts_events mut raw t vs).
Proof. intros mut raw vs. induction vs as [|v vs IH]; intros t n H; constructor; cbn [length] in H; [cbn; lia|]. apply IH. lia. Qed.

Lemma below_new : forall held n (o : call T St) vs, let '(es, _, k) := new_events held n o vs in Forall (below_tag (n + k)) es.
Proof.
  intros held n o vs.
  assert (V : forall mut x, Forall (below_tag (n + S (length vs))) (raw_events mut held x n ++ parts_events mut n (S n) vs)).
  { intros mut x. apply Forall_app. split; [apply below_map; intros ?; cbn; lia|apply below_parts; lia]. }
  destruct o; cbn [new_events fst snd]; auto; try (apply below_map; intros ?; cbn; lia); try (now constructor).
  rewrite !Forall_app. unfold product_events, product_reads. rewrite !Forall_app. repeat split; apply below_map; intros ?; cbn; auto; lia.
Qed.

Lemma below_late : forall held n (o : call T St), let '(es, k) := late_events held n o in Forall (below_tag (n + k)) es.
Proof.
  intros held n o. destruct o; cbn [late_events]; try (now constructor).
  rewrite !Forall_app. unfold product_events, product_reads. rewrite !Forall_app. repeat split; apply below_map; intros ?; cbn; auto; lia.
Qed.

Lemma below_uses : forall eager (o : call T St) held n us, Forall (below_tag n) (flat_map (use_events eager o held) us).
Proof.
  intros eager o held n us. apply Forall_forall. intros e He. apply in_flat_map in He. destruct He as (u & _ & He). unfold use_events in He.
  destruct (_ || _); [|destruct He]. apply in_map_iff in He. destruct He as (l & <- & _). exact I.
Qed.

Lemma below_drop : forall held n x, Forall (below_tag n) (drop_events held x).
Proof.
  intros held n x. apply Forall_forall. intros e He. apply in_flat_map in He. destruct He as (l & _ & He).
  destruct (l_owned l); [|destruct He]. destruct He as [<-|[]]. exact I.
Qed.

Lemma below_step : forall eager held n st st' (a : action T St) r,
  let '(es, _, k) := action_events eager held n st st' a r in Forall (below_tag (n + k)) es.
Proof.
  intros eager held n st st' a r. destruct a as [o|x]; cbn [action_events]; [|apply below_drop].
  pose proof (below_new held n o (skipn (length (st_mats st)) (st_mats st'))) as Hn. pose proof (below_late held n o) as Hl.
  destruct (new_events _ _ _ _) as [[es1 new] k1]. destruct (late_events _ _ _) as [es2 k2].
  destruct r; auto; try (apply Forall_app; split; auto; apply below_uses).
  apply Forall_app. split; [apply below_uses|]. apply Forall_forall. intros e He. apply in_flat_map in He. destruct He as (u & _ & He).
  destruct (snd u); try destruct He. pose proof (below_drop held (n + 0) (fst u)) as D. rewrite Forall_forall in D. auto.
Qed.

Lemma below_run : forall eager m (acts : list (action T St)) ts ts' es rs, trun kern eager m ts acts = Some (Ok (ts', es, rs)) ->
  (t_next ts <= t_next ts')%nat /\ Forall (below_tag (t_next ts')) es.
Proof.
  intros eager m acts. induction acts as [|a acts IH]; intros ts ts' es rs H; cbn [trun] in H.
  - injection H as <- <- <-. split; auto.
  - destruct (tstep kern eager m ts a) as [[[[ts1 es1] r1]| |]|] eqn:E; try discriminate.
    destruct (trun kern eager m ts1 acts) as [[[[ts2 es2] rs2]| |]|] eqn:E2; try discriminate.
    cbn [bind] in H. injection H as <- <- <-. destruct (IH _ _ _ _ E2) as [I1 I2].
    apply tstep_inv in E. destruct E as (bs' & new & k & _ & Ea & ->). cbn [t_next] in *.
    pose proof (below_step eager (t_held ts) (t_next ts) (b_state (t_state ts)) (b_state bs') a r1) as X. rewrite Ea in X.
    split; [lia|]. apply Forall_app. split; auto. eapply Forall_impl; [|exact X]. intros e. destruct e; cbn; lia.
Qed.

(** ** Splits *)

Lemma sb_parts : forall q raw s (vs : list (matrix T)) t top, (raw < t)%nat ->
  (top = [] \/ exists u, top = [(u, Some Unique)] /\ u <> raw) ->
  exists top', sb_events q (top ++ (raw, Some SharedReadWrite) :: s) (parts_events true raw t vs) =
      Some (top' ++ (raw, Some SharedReadWrite) :: s) /\
    ((exists i v, nth_error vs i = Some v /\ covers (region_of v) q = true /\
        (forall j w, (i < j)%nat -> nth_error vs j = Some w -> covers (region_of w) q = false) /\
        top' = [((t + i)%nat, Some Unique)]) \/
     ((forall i v, nth_error vs i = Some v -> covers (region_of v) q = false) /\ top' = top)).
Proof.
  intros q raw s vs. induction vs as [|w vs IH]; intros t top Ht Htop; cbn [parts_events sb_events].
  - exists top. split; auto. right. split; auto. intros [|i] v H; discriminate.
  - cbn [sb_event]. destruct (covers (region_of w) q) eqn:E.
    + assert (Ea : sb_access (may_write (view_permission true)) raw (top ++ (raw, Some SharedReadWrite) :: s) = Some ((raw, Some SharedReadWrite) :: s)).
      { destruct Htop as [->|(u & -> & Hu)]; cbn.
        - now rewrite Nat.eqb_refl.
        - apply Nat.eqb_neq in Hu. rewrite Hu. cbn. now rewrite Nat.eqb_refl. }
      rewrite Ea. cbn [option_map].
      destruct (IH (S t) [(t, Some (view_permission true))]) as (top' & E' & Hr); [lia|right; exists t; split; [reflexivity|lia]|].
      exists top'. split; [exact E'|]. destruct Hr as [(i & v & H1 & H2 & H3 & H4)|[H1 H2]].
      * left. exists (S i), v. splits; auto.
        -- intros [|j] w' Hj Hw; [lia|]. apply (H3 j); auto. lia.
        -- rewrite H4. do 2 f_equal. lia.
      * left. exists O, w. splits; auto.
        -- intros [|j] w' Hj Hw; [lia|]. now apply (H1 j).
        -- rewrite H2, Nat.add_0_r. reflexivity.
    + destruct (IH (S t) top) as (top' & E' & Hr); [lia|exact Htop|]. exists top'. split; [exact E'|].
      destruct Hr as [(i & v & H1 & H2 & H3 & H4)|[H1 H2]].
      * left. exists (S i), v. splits; auto.
        -- intros [|j] w' Hj Hw; [lia|]. apply (H3 j); auto. lia.
        -- rewrite H4. do 2 f_equal. lia.
      * right. split; auto. intros [|i] v Hv; cbn in Hv; [injection Hv as <-; exact E|eauto].
Qed.

(** The events of a split and of a use of one part. *)
Lemma split_events : forall eager m ts es x at_ ts1 es1 k (o : call T St) a ts2 es2 r v,
  ghost ts es -> tstep kern eager m ts (Do (@CSplit T St x at_)) = Some (Ok (ts1, es1, RNew)) ->
  uses o = [((length (st_mats (b_state (t_state ts))) + k)%nat, a)] -> a <> Moved -> reaches_data o = true ->
  tstep kern eager m ts1 (Do o) = Some (Ok (ts2, es2, r)) -> r <> RNew -> r <> RSkipped ->
  nth_error (st_mats (b_state (t_state ts1))) (length (st_mats (b_state (t_state ts))) + k) = Some v ->
  exists vs tb rg w e0, es1 = (e0 ++ [Reborrow tb (t_next ts) SharedReadWrite rg]) ++ parts_events true (t_next ts) (S (t_next ts)) vs /\
    Forall (below_tag (t_next ts)) e0 /\
    es2 = [Access w (S (t_next ts) + k) (region_of v)] /\ nth_error vs k = Some v /\
    (forall q, covers (region_of v) q = true -> covers rg q = true) /\
    (forall j u, nth_error (st_mats (b_state (t_state ts1))) (length (st_mats (b_state (t_state ts))) + j) = Some u <-> nth_error vs j = Some u).
Proof.
  intros eager m ts es x at_ ts1 es1 k o a ts2 es2 r v G H1 Hu Ha Hd H2 Hr Hr' Hv.
  unfold tstep in H1. destruct (bstep kern m (t_state ts) (Do (@CSplit T St x at_))) as [[[bs1 r1]| |]|] eqn:E1; try discriminate. cbn [bind] in H1.
  destruct (action_events eager (t_held ts) (t_next ts) (b_state (t_state ts)) (b_state bs1) (Do (@CSplit T St x at_)) r1) as [[e1 new] k1] eqn:Ea1.
  injection H1 as <- <- ->. cbn [t_state] in *.
  apply bstep_inv in E1. destruct E1 as [(o' & bt & st' & Eo & A & Hs & ->)|(y & bt & Eo & _)]; [|discriminate]. injection Eo as <-.
  cbn [b_state b_slots] in *.
  assert (K : exists b b0 b1 b2 b3, lookup_mut (b_state (t_state ts)) x = Some b /\
    split_in_four_mut m b at_ = Ok (b0, b1, b2, b3) /\ st_mats st' = st_mats (b_state (t_state ts)) ++ [MBase b0; MBase b1; MBase b2; MBase b3]).
  { pose proof (step_kinds kern m (b_state (t_state ts)) (@CSplit T St x at_) st' RNew I Hs) as K.
    inversion K as [? Hn|? ? ? ? ? Hret|? ? ? Hret Hder|x' at' b b0 b1 b2 b3 Eo Hx _ Hs' Eh Em]; subst; try congruence.
    - specialize (Hret []). discriminate.
    - inversion Hder.
    - injection Eo as <- <-. eauto 10. }
  destruct K as (b & b0 & b1 & b2 & b3 & Hb & Hs' & Em). remember ([MBase b0; MBase b1; MBase b2; MBase b3] : list (matrix T)) as vs eqn:Evs.
  cbn [action_events new_events] in Ea1. rewrite Em, skipn_app, skipn_all, Nat.sub_diag in Ea1. cbn [app skipn] in Ea1.
  pose proof (f_equal (fun z => fst (fst z)) Ea1) as Ee. pose proof (f_equal (fun z => snd (fst z)) Ea1) as En. cbn [fst snd] in Ee, En. clear Ea1. unfold tstep in H2. cbn [t_state t_held t_next] in H2.
  destruct (bstep kern m _ (Do o)) as [[[bs2 r2]| |]|] eqn:E2; try discriminate. cbn [bind] in H2.
  destruct (action_events eager (t_held ts ++ new) (t_next ts + k1) _ (b_state bs2) (Do o) r2) as [[e2 new2] k2] eqn:Ea2.
  injection H2 as <- <- ->.
  assert (Hk : nth_error vs k = Some v).
  { rewrite Em, nth_error_app2 in Hv by lia. now replace (_ + k - _)%nat with k in Hv by lia. }
  assert (Hj : forall j w, nth_error (st_mats st') (length (st_mats (b_state (t_state ts))) + j) = Some w <-> nth_error vs j = Some w).
  { intros j w. rewrite Em, nth_error_app2 by lia. now replace (_ + j - _)%nat with j by lia. }
  assert (Lk : leaves_of (t_held ts ++ new) (length (st_mats (b_state (t_state ts))) + k) = [mkLeaf (S (t_next ts) + k) (region_of v) true false]).
  { rewrite <- (g_held _ _ G), leaves_new, <- En. now apply parts_leaves_at. }
  pose proof (lookup_mut_writable _ _ _ Hb) as [Hb' Hw]. destruct (g_base _ _ G _ _ Hb') as [tb Hl].
  exists vs, tb, (c_region (bm_data b)), (access_writes a (mkLeaf (S (t_next ts) + k) (region_of v) true false)),
    (flat_map (use_events eager (@CSplit T St x at_) (t_held ts)) (uses (@CSplit T St x at_))).
  splits; auto.
  - rewrite <- Ee, <- app_assoc. unfold raw_events. rewrite Hl. reflexivity.
  - apply below_uses.
  - cbn [action_events] in Ea2. rewrite Hu in Ea2. cbn [flat_map] in Ea2. unfold use_events in Ea2. cbn [fst snd] in Ea2.
    rewrite Hd, orb_true_r, Lk, app_nil_r in Ea2. cbn [map l_tag l_region] in Ea2.
    assert (Hl' : late_events (t_held ts ++ new) (t_next ts + k1)%nat o = ([], O)) by (destruct o; try reflexivity; discriminate Hu).
    rewrite Hl' in Ea2.
    destruct r; try (now elim Hr); try (now elim Hr'); try (injection Ea2 as <- _ _; now rewrite ?app_nil_r).
    destruct a; try (now elim Ha); injection Ea2 as <- _ _; reflexivity.
  - intros q Hq. pose proof (split_within _ _ _ _ _ _ _ Hs') as W. rewrite Forall_forall in W. apply nth_error_In in Hk. rewrite Evs in Hk.
    apply (within_covers (region_of v)); auto. cbn [In] in Hk. destruct Hk as [<-|[<-|[<-|[<-|[]]]]]; apply W; cbn; auto 6.
Qed.

Lemma split_use_sb : forall eager m (acts : list (action T St)) ts es rs x at_ ts1 es1 k (o : call T St) a ts2 es2 r v,
  Forall no_pointers acts -> apart_splits kern m binitial acts -> trun kern eager m tinitial acts = Some (Ok (ts, es, rs)) ->
  tstep kern eager m ts (Do (@CSplit T St x at_)) = Some (Ok (ts1, es1, RNew)) ->
  uses o = [((length (st_mats (b_state (t_state ts))) + k)%nat, a)] -> a <> Moved -> reaches_data o = true ->
  tstep kern eager m ts1 (Do o) = Some (Ok (ts2, es2, r)) -> r <> RNew -> r <> RSkipped ->
  nth_error (st_mats (b_state (t_state ts1))) (length (st_mats (b_state (t_state ts))) + k) = Some v ->
  (sb_respects (es ++ es1 ++ es2) <-> respects (es ++ es1 ++ es2)).
Proof.
  intros eager m acts ts es rs x at_ ts1 es1 k o a ts2 es2 r v Np Ap H H1 Hu Ha Hd H2 Hr Hr' Hv. split; [|apply stricter].
  pose proof (ghost_run _ _ _ _ _ _ _ _ _ ghost_initial Np Ap H) as G. cbn [app] in G. intros Hre.
  apply (split_use kern eager m ts es x at_ ts1 es1 k o a ts2 es2 r v G H1 Hu Ha Hd H2 Hr Hr' Hv).
  intros j w Hj Hw (q & Q1 & Q2).
  destruct (split_events eager m ts es x at_ ts1 es1 k o a ts2 es2 r v G H1 Hu Ha Hd H2 Hr Hr' Hv)
    as (vs & tb & rg & wr & e0 & -> & B0 & -> & Hk & Hrg & Hn). apply Hn in Hw. specialize (Hre q).
  destruct (below_run _ _ _ _ _ _ _ H) as [_ Be].
  rewrite app_assoc, sb_app in Hre. destruct (sb_events q [] (es ++ (e0 ++ [Reborrow tb (t_next ts) SharedReadWrite rg]) ++ _)) as [s|] eqn:Es; [|congruence].
  apply Hre. cbn [sb_events sb_event]. rewrite Q1. destruct (sb_access wr (S (t_next ts) + k) s) as [s'|] eqn:Ea; [|reflexivity]. exfalso.
  apply sb_access_tags in Ea. destruct Ea as [Ht _].
  rewrite app_assoc, sb_app, app_assoc, sb_app in Es. destruct (sb_events q [] (es ++ e0)) as [s0|] eqn:E0; [|discriminate].
  cbn [sb_events sb_event] in Es. rewrite (Hrg q Q1) in Es.
  destruct (sb_access (may_write SharedReadWrite) tb s0) as [s1|] eqn:E1; [|discriminate]. cbn [option_map] in Es.
  assert (B1 : forall u, In u (map fst s1) -> (u < t_next ts)%nat).
  { intros u Hu1. apply sb_access_tags in E1. apply E1 in Hu1. eapply (sb_tags q (t_next ts) (es ++ e0) [] s0); eauto.
    - apply Forall_app. auto.
    - intros v0 []. }
  destruct (sb_parts q (t_next ts) s1 vs (S (t_next ts)) []) as (top & X3 & X4); [lia|now left|]. cbn [app] in X3.
  assert (Es' : Some (top ++ (t_next ts, Some SharedReadWrite) :: s1) = Some s) by exact (eq_trans (eq_sym X3) Es). injection Es' as <-.
  rewrite map_app in Ht. apply in_app_or in Ht. cbn [map fst In] in Ht.
  assert (Hs1 : ~ In (S (t_next ts) + k)%nat (map fst s1)) by (intros Z; apply B1 in Z; lia).
  destruct X4 as [(i & u & Hi & Hci & Hlast & ->)|[Hnone _]]; [|rewrite (Hnone k v Hk) in Q1; discriminate].
  destruct Ht as [[Ht|[]]|[Ht|Ht]]; [|lia|auto]. cbn [fst] in Ht. assert (i = k) by lia. subst i.
  rewrite (Hlast j w Hj Hw) in Q2. discriminate.
Qed.
End Rules.

(** ** What the rules of the paper forbid *)

(** No item of the tag is left that allows anything. *)
Definition dead (t : tag) (s : marked) : Prop := forall p, ~ In (t, Some p) s.

Lemma read_none : forall t s, dead t s -> sb_read t s = None.
Proof.
  intros t s. induction s as [|[u p] s IH]; intros H; cbn; auto.
  destruct p as [p|].
  - destruct (Nat.eqb_spec u t) as [->|N]; cbn; [elim (H p); now left|].
    rewrite IH; auto. intros p' I. apply (H p'). now right.
  - rewrite andb_false_r. rewrite IH; auto. intros p' I. apply (H p'). now right.
Qed.

Lemma group_none : forall t s, (forall p, may_write p = true -> ~ In (t, Some p) s) -> sb_group t s = None.
Proof.
  intros t s. induction s as [|[u p] s IH]; intros H; cbn; auto.
  rewrite IH by (intros p' W I; apply (H p' W); now right).
  destruct (Nat.eqb_spec u t) as [->|N]; cbn; auto.
  destruct p as [[]|]; auto; [elim (H Unique eq_refl)|elim (H SharedReadWrite eq_refl)]; now left.
Qed.

Lemma access_dead : forall w t s, dead t s -> sb_access w t s = None.
Proof.
  intros [] t s H; cbn; [rewrite group_none; auto|now apply read_none].
Qed.

(** An access changes no item but to disable it. *)
Lemma access_items : forall w t s s', sb_access w t s = Some s' -> forall u p, In (u, Some p) s' -> In (u, Some p) s.
Proof.
  intros [] t s s' H u p I; cbn in H.
  - destruct (sb_group t s) as [[s2 o]|] eqn:E; [|discriminate]. injection H as <-. cbn in I. revert s2 o E I.
    induction s as [|[v q] s IH]; intros s2 o E I; cbn in E; [discriminate|].
    destruct (Nat.eqb v t && _); [now injection E as <- <-|].
    destruct (sb_group t s) as [[s3 o3]|]; [|discriminate].
    destruct (o3 && _) in E; injection E as <- <-; [destruct I as [I|I]; [now left|]|]; right; eapply IH; eauto.
  - revert s' H I. induction s as [|[v q] s IH]; intros s' H I; cbn in H; [discriminate|].
    destruct (Nat.eqb v t && _); [now injection H as <-|].
    destruct (sb_read t s) as [s3|]; [|discriminate]. injection H as <-. destruct I as [I|I]; [|right; eapply IH; eauto].
    destruct q as [[]|]; injection I as -> I; try discriminate; left; congruence.
Qed.

Lemma event_dead : forall q t e s s', ~ In t (tags_made [e]) -> dead t s -> sb_event q s e = Some s' -> dead t s'.
Proof.
  intros q t e s s' N D H. destruct e as [u r|w u r|u v p r|u r]; cbn in H, N; destruct (covers r q); try (injection H as <-; auto; fail).
  - injection H as <-. intros p [E|[]]. injection E as -> _. now elim N; left.
  - intros p I. apply (D p). eapply access_items; eauto.
  - destruct (sb_access (may_write p) u s) as [s1|] eqn:E; [|discriminate]. injection H as <-. intros p' [I|I].
    + injection I as -> _. now elim N; left.
    + apply (D p'). eapply access_items; eauto.
  - destruct (sb_group u s) as [[s1 o]|]; [|discriminate]. injection H as <-. now intros p [].
Qed.

Lemma made_app : forall a b, tags_made (a ++ b) = tags_made a ++ tags_made b.
Proof. intros a b. unfold tags_made. apply flat_map_app. Qed.

Lemma events_dead : forall q t es s s', ~ In t (tags_made es) -> dead t s -> sb_events q s es = Some s' -> dead t s'.
Proof.
  intros q t es. induction es as [|e es IH]; intros s s' N D H; cbn in H; [now injection H as <-|].
  change (e :: es) with ([e] ++ es) in N. rewrite made_app, in_app_iff in N.
  destruct (sb_event q s e) as [s1|] eqn:E; [|discriminate]. eapply (IH s1 s'); eauto. eapply event_dead; eauto.
Qed.

Lemma events_tags : forall q es s s', sb_events q s es = Some s' ->
  forall t, In t (map fst s') -> In t (map fst s) \/ In t (tags_made es).
Proof.
  intros q es. induction es as [|e es IH]; intros s s' H t I; cbn in H; [injection H as <-; now left|].
  change (e :: es) with ([e] ++ es). rewrite made_app, in_app_iff.
  destruct (sb_event q s e) as [s1|] eqn:E; [|discriminate]. destruct (IH s1 s' H t I) as [I1|I1]; auto.
  clear H I IH. destruct e as [u r|w u r|u v p r|u r]; cbn in E; destruct (covers r q); try (injection E as <-; auto; fail).
  - left. now apply (sb_access_tags _ _ _ _ E).
  - destruct (sb_access (may_write p) u s) as [s2|] eqn:E2; [|discriminate]. injection E as <-. destruct I1 as [I1|I1]; cbn in *; auto.
    left. now apply (sb_access_tags _ _ _ _ E2).
  - destruct (sb_group u s) as [[s2 o]|]; [|discriminate]. injection E as <-. now destruct I1.
Qed.

(** The item of [t], if it is not dead, lies above those of [u]. *)
Definition over (t : tag) (p : permission) (u : tag) (s : marked) : Prop :=
  dead t s \/ exists s1 s2, s = s1 ++ (t, Some p) :: s2 /\ ~ In u (map fst s1) /\ dead t s1 /\ dead t s2.

Lemma dead_app : forall t a b, dead t (a ++ b) <-> dead t a /\ dead t b.
Proof.
  intros t a b. unfold dead. split.
  - intros H. split; intros p I; apply (H p), in_or_app; auto.
  - intros [Ha Hb] p I. apply in_app_or in I. destruct I; [eapply Ha|eapply Hb]; eauto.
Qed.

Lemma dead_other : forall t u p s, dead t s -> u <> t -> dead t ((u, p) :: s).
Proof. intros t u p s D N p' [I|I]; [congruence|]. now apply (D p'). Qed.

Lemma access_over : forall w v t p u s s', over t p u s -> sb_access w v s = Some s' -> over t p u s'.
Proof.
  intros w v t p u s s' [D|(s1 & s2 & -> & N & D1 & D2)] H; [left; intros p' I; apply (D p'); eapply access_items; eauto|].
  destruct w; cbn in H.
  - destruct (sb_group v (s1 ++ _)) as [[s3 o]|] eqn:E; [|discriminate]. injection H as <-. cbn.
    revert s3 o N D1 E. induction s1 as [|[x q] s1 IH]; intros s3 o N D1 E.
    + cbn in E. destruct (Nat.eqb t v && _) in E; [injection E as <- <-; right; exists [], s2; auto|].
      destruct (sb_group v s2) as [[s4 o4]|] eqn:E4; [|discriminate].
      assert (D4 : dead t s4) by (intros p' I; apply (D2 p'); apply (access_items true v s2 s4); cbn; [now rewrite E4|auto]).
      destruct (o4 && _) in E; injection E as <- <-; [right; exists [], s4; auto|now left].
    + cbn [app sb_group] in E. destruct (Nat.eqb x v && _) in E; [injection E as <- <-; right; exists ((x, q) :: s1), s2; auto|].
      destruct (sb_group v (s1 ++ _)) as [[s4 o4]|]; [|discriminate].
      change ((x, q) :: s1) with ([(x, q)] ++ s1) in D1. apply dead_app in D1. destruct D1 as [Dx D1].
      cbn in N. destruct (IH s4 o4) as [D|(a & b & -> & Na & Da & Db)]; auto.
      * left. destruct (o4 && _) in E; injection E as <- <-; auto. now apply (dead_app t [(x, q)]).
      * right. destruct (o4 && _) in E; injection E as <- <-; [|now exists a, b].
        exists ((x, q) :: a), b. splits; auto; [cbn; tauto|now apply (dead_app t [(x, q)])].
  - revert s' N D1 H. induction s1 as [|[x q] s1 IH]; intros s' N D1 H.
    + cbn in H. destruct (Nat.eqb t v && _) in H; [injection H as <-; right; exists [], s2; auto|].
      destruct (sb_read v s2) as [s4|] eqn:E4; [|discriminate]. injection H as <-.
      assert (D4 : dead t s4) by (intros p' I; apply (D2 p'); apply (access_items false v s2 s4); auto).
      destruct p; [left; intros p' [I|I]; [discriminate|now apply (D4 p')]|right; exists [], s4; auto|right; exists [], s4; auto].
    + cbn [app sb_read] in H. destruct (Nat.eqb x v && _) in H; [injection H as <-; right; exists ((x, q) :: s1), s2; auto|].
      destruct (sb_read v (s1 ++ _)) as [s4|]; [|discriminate]. injection H as <-.
      change ((x, q) :: s1) with ([(x, q)] ++ s1) in D1. apply dead_app in D1. destruct D1 as [Dx D1].
      assert (Dx' : dead t [(x, match q with Some Unique => None | _ => q end)]).
      { intros p' [I|[]]. apply (Dx p'). left. destruct q as [[]|]; try discriminate; auto. }
      cbn in N. destruct (IH s4) as [D|(a & b & -> & Na & Da & Db)]; auto.
      * left. now apply (dead_app t [_]).
      * right. eexists (_ :: a), b. cbn [app]. splits; eauto; [cbn; tauto|now apply (dead_app t [_])].
Qed.

Lemma event_over : forall q t p u e s s', ~ In t (tags_made [e]) -> ~ In u (tags_made [e]) ->
  over t p u s -> sb_event q s e = Some s' -> over t p u s'.
Proof.
  intros q t p u e s s' Nt Nu D H. destruct e as [x r|w x r|x v p' r|x r]; cbn in H, Nt, Nu; destruct (covers r q); try (injection H as <-; auto; fail).
  - injection H as <-. left. intros p' [E|[]]. injection E as -> _. now elim Nt; left.
  - eapply access_over; eauto.
  - destruct (sb_access (may_write p') x s) as [s1|] eqn:E; [|discriminate]. injection H as <-.
    destruct (access_over _ _ _ _ _ _ _ D E) as [D'|(a & b & -> & Na & Da & Db)].
    + left. apply dead_other; auto.
    + right. exists ((v, Some p') :: a), b. splits; auto; [cbn; tauto|apply dead_other; auto].
  - destruct (sb_group x s) as [[s1 o]|]; [|discriminate]. injection H as <-. left. now intros p' [].
Qed.

Lemma events_over : forall q t p u es s s', ~ In t (tags_made es) -> ~ In u (tags_made es) ->
  over t p u s -> sb_events q s es = Some s' -> over t p u s'.
Proof.
  intros q t p u es. induction es as [|e es IH]; intros s s' Nt Nu D H; cbn in H; [now injection H as <-|].
  change (e :: es) with ([e] ++ es) in Nt, Nu. rewrite made_app, in_app_iff in Nt, Nu.
  destruct (sb_event q s e) as [s1|] eqn:E; [|discriminate]. eapply (IH s1 s'); eauto. eapply event_over; eauto.
Qed.

(** An access with [u] ends what lies above it, if it is exclusive or the access is a write. *)
Lemma access_ends : forall w t p u s s', over t p u s -> t <> u -> p = Unique \/ p = SharedReadOnly /\ w = true ->
  sb_access w u s = Some s' -> dead t s'.
Proof.
  intros w t p u s s' [D|(s1 & s2 & -> & N & D1 & D2)] Ne Hp H; [intros p' I; apply (D p'); eapply access_items; eauto|].
  destruct w; cbn in H.
  - destruct (sb_group u (s1 ++ _)) as [[s3 o]|] eqn:E; [|discriminate]. injection H as <-. cbn.
    revert s3 o N D1 E. induction s1 as [|[x q] s1 IH]; intros s3 o N D1 E.
    + cbn in E. destruct (Nat.eqb_spec t u) as [|_]; [contradiction|]. cbn in E.
      destruct (sb_group u s2) as [[s4 o4]|] eqn:E4; [|discriminate].
      assert (D4 : dead t s4) by (intros p' I; apply (D2 p'); apply (access_items true u s2 s4); cbn; [now rewrite E4|auto]).
      destruct Hp as [->|[-> _]]; rewrite andb_false_r in E; injection E as <- <-; auto.
    + cbn [app sb_group] in E. cbn in N. destruct (Nat.eqb_spec x u) as [|_]; [tauto|]. cbn [andb] in E.
      destruct (sb_group u (s1 ++ _)) as [[s4 o4]|]; [|discriminate].
      change ((x, q) :: s1) with ([(x, q)] ++ s1) in D1. apply dead_app in D1. destruct D1 as [Dx D1].
      assert (D : dead t s4) by (apply (IH s4 o4); auto).
      destruct (o4 && _) in E; injection E as <- <-; auto. now apply (dead_app t [(x, q)]).
  - destruct Hp as [->|[_ ?]]; [|discriminate]. revert s' N D1 H. induction s1 as [|[x q] s1 IH]; intros s' N D1 H.
    + cbn in H. destruct (Nat.eqb_spec t u) as [|_]; [contradiction|]. cbn in H.
      destruct (sb_read u s2) as [s4|] eqn:E4; [|discriminate]. injection H as <-.
      intros p' [I|I]; [discriminate|]. apply (D2 p'). now apply (access_items false u s2 s4).
    + cbn [app sb_read] in H. cbn in N. destruct (Nat.eqb_spec x u) as [|_]; [tauto|]. cbn [andb] in H.
      destruct (sb_read u (s1 ++ _)) as [s4|]; [|discriminate]. injection H as <-.
      change ((x, q) :: s1) with ([(x, q)] ++ s1) in D1. apply dead_app in D1. destruct D1 as [Dx D1].
      apply (dead_app t [_]). split; [|apply IH; auto]. intros p' [I|[]]. apply (Dx p'). left. destruct q as [[]|]; try discriminate; auto.
Qed.

Lemma paper_exclusive : forall q parent new p r w r1 w2 r2 before between after,
  covers r q = true -> covers r1 q = true -> covers r2 q = true ->
  p = Unique \/ p = SharedReadOnly /\ w = true ->
  NoDup (tags_made (before ++ [Reborrow parent new p r] ++ between ++ [Access w parent r1] ++ after)) ->
  sb_events q [] (before ++ [Reborrow parent new p r] ++ between ++ [Access w parent r1] ++ after ++ [Access w2 new r2]) = None.
Proof.
  intros q parent new p r w r1 w2 r2 before between after C0 C1 C2 Hp Hn.
  destruct (sb_events q [] (before ++ _)) as [s'|] eqn:H; [exfalso|auto].
  rewrite !made_app in Hn. cbn [tags_made flat_map app] in Hn.
  rewrite sb_app in H. destruct (sb_events q [] before) as [s0|] eqn:E0; [|discriminate].
  pose proof (events_tags q before [] s0 E0) as T0.
  cbn [app sb_events sb_event] in H. rewrite C0 in H.
  destruct (sb_access (may_write p) parent s0) as [s1|] eqn:E1; [|discriminate]. cbn [option_map] in H.
  destruct (sb_access_tags _ _ _ _ E1) as [I1 T1].
  rewrite sb_app in H. destruct (sb_events q _ between) as [s2|] eqn:E2; [|discriminate].
  cbn [app sb_events sb_event] in H. rewrite C1 in H. destruct (sb_access w parent s2) as [s3|] eqn:E3; [|discriminate].
  rewrite sb_app in H. destruct (sb_events q s3 after) as [s4|] eqn:E4; [|discriminate].
  cbn [sb_events sb_event] in H. rewrite C2 in H.
  assert (Nn : ~ In new (tags_made before ++ tags_made between ++ tags_made after)).
  { intros I. apply NoDup_remove_2 in Hn. now apply Hn. }
  rewrite !in_app_iff in Nn.
  assert (Pb : In parent (tags_made before)) by (destruct (T0 parent I1) as [[]|]; auto).
  assert (Np : parent <> new) by (intros ->; tauto).
  assert (Npb : ~ In parent (tags_made between)).
  { intros I. apply in_split in Pb. destruct Pb as (a & b & Eb). rewrite Eb in Hn. rewrite <- app_assoc in Hn.
    apply NoDup_remove_2 in Hn. apply Hn. rewrite !in_app_iff. right. right. right. apply in_or_app. now left. }
  assert (D1 : dead new s1).
  { intros p' I. apply (in_map fst) in I. apply T1, T0 in I. destruct I as [[]|I]. tauto. }
  assert (V : over new p parent s2).
  { apply (events_over q new p parent between ((new, Some p) :: s1) s2); auto.
    right. exists [], s1. splits; auto. intros p' []. }
  assert (D3 : dead new s3) by (apply (access_ends w new p parent s2 s3); auto).
  assert (D4 : dead new s4) by (apply (events_dead q new after s3 s4); auto).
  now rewrite (access_dead w2 new s4 D4) in H.
Qed.

Lemma read_only_items : forall q t es s s', (forall p, may_write p = true -> ~ In (t, Some p) s) -> ~ In t (tags_made es) ->
  sb_events q s es = Some s' -> forall p, may_write p = true -> ~ In (t, Some p) s'.
Proof.
  intros q t es. induction es as [|e es IH]; intros s s' Hs N H; cbn in H; [now injection H as <-|].
  change (e :: es) with ([e] ++ es) in N. rewrite made_app, in_app_iff in N.
  destruct (sb_event q s e) as [s1|] eqn:E; [|discriminate]. apply (IH s1 s'); [|tauto|auto]. intros p W I.
  destruct e as [x r|w x r|x v p' r|x r]; cbn in E; destruct (covers r q); try (injection E as <-; now apply (Hs p W)).
  - injection E as <-. destruct I as [I|[]]. injection I as -> _. apply N. left. now left.
  - apply (Hs p W). eapply access_items; eauto.
  - destruct (sb_access (may_write p') x s) as [s2|] eqn:E2; [|discriminate]. injection E as <-. destruct I as [I|I].
    + injection I as -> _. apply N. left. now left.
    + apply (Hs p W). eapply access_items; eauto.
  - destruct (sb_group x s) as [[s2 o]|]; [|discriminate]. now injection E as <-.
Qed.

Lemma paper_read_only : forall q parent new r r1 before after,
  covers r q = true -> covers r1 q = true ->
  NoDup (tags_made (before ++ [Reborrow parent new SharedReadOnly r] ++ after)) ->
  sb_events q [] (before ++ [Reborrow parent new SharedReadOnly r] ++ after ++ [Access true new r1]) = None.
Proof.
  intros q parent new r r1 before after C0 C1 Hn.
  destruct (sb_events q [] (before ++ _)) as [s'|] eqn:H; [exfalso|auto].
  rewrite !made_app in Hn. cbn [tags_made flat_map app] in Hn. apply NoDup_remove_2 in Hn. rewrite in_app_iff in Hn.
  rewrite sb_app in H. destruct (sb_events q [] before) as [s0|] eqn:E0; [|discriminate].
  pose proof (events_tags q before [] s0 E0) as T0.
  cbn [app sb_events sb_event] in H. rewrite C0 in H.
  destruct (sb_access _ parent s0) as [s1|] eqn:E1; [|discriminate]. cbn [option_map] in H.
  destruct (sb_access_tags _ _ _ _ E1) as [I1 T1].
  rewrite sb_app in H. destruct (sb_events q _ after) as [s2|] eqn:E2; [|discriminate].
  cbn [sb_events sb_event] in H. rewrite C1 in H. cbn in H. rewrite group_none in H; [discriminate|].
  refine (read_only_items q new after _ s2 _ _ E2); auto.
  intros p W [I|I]; [injection I as <-; discriminate|].
  apply (in_map fst) in I. apply T1, T0 in I. destruct I as [[]|I]. tauto.
Qed.
