(** * Proofs about the aliasing rules. *)

From Coq Require Import ZifyBool ZifyNat ZifyN.
From Verif Require Import Machine MachineFacts Layouts Memory Matrix MatMul Spec MatrixSpec ExprSpec ProductSpec.
From Verif Require Import LayoutFacts MemoryFacts AccessFacts AccessProofs ConstructorProofs BlockProofs.
From Verif Require Import ExprProofs ProductProofs Program HistorySpec HistoryProofs HistorySafety Borrow BorrowFacts BorrowProofs.
From Verif Require Import AdmitProofs DeallocProofs.
From Verif Require Import Stacked StackedFacts StackedCell StackedNew.

(** ** Raw pointers *)

(** The tag of a raw pointer that is above all tags below [n]. *)
Definition raw_in (n : tag) (raw : tag) (p : permission) (s : stack) : Prop :=
  In (raw, p) s /\ forall t, (t < n)%nat -> ~ over s t raw.

Lemma raw_push : forall n raw p s, (n <= raw)%nat -> raw_in n raw p ((raw, p) :: s) \/ In raw (map fst s).
Proof.
  intros n raw p s H. destruct (in_dec Nat.eq_dec raw (map fst s)) as [E|E]; auto. left. split; [now left|].
  intros t Ht O. apply over_cons in O; [|lia]. apply over_in in O. now destruct O.
Qed.

Lemma raw_keep : forall n raw p s t r, (n <= t)%nat -> raw_in n raw p s -> raw_in n raw p ((t, r) :: s).
Proof. intros n raw p s t r H [H1 H2]. split; [now right|]. intros u Hu O. apply over_cons in O; [|lia]. now apply (H2 u). Qed.

Lemma raw_sub : forall n raw p s s', sub s' s -> In (raw, p) s' -> raw_in n raw p s -> raw_in n raw p s'.
Proof. intros n raw p s s' S H [_ H2]. split; auto. intros u Hu O. apply (H2 u); auto. eapply sub_over; eauto. Qed.

(** A read with a raw pointer. *)
Lemma ci_raw_read : forall L B bt held n n' q s raw p, cellinv L B bt held n' q s -> raw_in n raw p s ->
  (forall x l, holds held q x l -> (l_tag l < n)%nat) ->
  exists s', access_cell false raw s = Some s' /\ cellinv L B bt held n' q s' /\ sub s' s /\
    (forall u r, In (u, r) s -> r <> Unique -> In (u, r) s').
Proof.
  intros L B bt held n n' q s raw p I [H1 H2] Hh.
  destruct (access_spec false raw s p) as (s' & E & S & _ & K & _); auto; [exact (ci_nodup _ _ _ _ _ _ _ I)|discriminate|].
  exists s'. splits; auto.
  - eapply ci_sub; eauto. intros x l r Hx Hl Hr. destruct (K _ _ Hr) as [?|[O _]]; auto. exfalso. apply (H2 (l_tag l)); eauto.
  - intros u r Hr Hn. destruct (K _ _ Hr) as [?|[_ U]]; auto. now elim Hn; apply U.
Qed.

(** A read with a held tag keeps what may not write alone. *)
Lemma ci_read : forall L B bt held n q s us x a l, cellinv L B bt held n q s -> ready L bt us -> In (x, a) us ->
  holds held q x l ->
  exists s', access_cell false (l_tag l) s = Some s' /\ cellinv L B bt held n q s' /\ sub s' s /\
    (forall u r, In (u, r) s -> r <> Unique -> In (u, r) s').
Proof.
  intros L B bt held n q s us x a l I R Hu Hl.
  destruct (ci_access L B bt held n q s us x a false l) as (s' & p & E & I' & _); auto; [discriminate|].
  destruct (R x a Hu) as [Hx _]. destruct (ci_item _ _ _ _ _ _ _ I x l Hx Hl) as (p' & Hp & _).
  destruct (access_spec false (l_tag l) s p') as (s2 & E2 & S & _ & K & _); auto; [exact (ci_nodup _ _ _ _ _ _ _ I)|discriminate|].
  assert (s2 = s') by congruence. subst s2. exists s'. splits; auto.
  intros u r Hr Hn. destruct (K _ _ Hr) as [?|[_ U]]; auto. now elim Hn; apply U.
Qed.

Lemma product_ok : forall L B bt held n q s us a b la lb, cellinv L B bt held n q s -> ready L bt us ->
  In (a, Shared) us -> In (b, Shared) us -> leaves_of held a = [la] -> leaves_of held b = [lb] ->
  exists s', cell_events q s (product_events held n a b ++ product_reads held n a b) = Some s' /\
    cellinv L B bt held (n + 2) q s'.
Proof.
  intros L B bt held n q s us a b la lb I R Ha Hb Ea Eb.
  unfold product_events, product_reads, raw_events, raw_uses. rewrite Ea, Eb. cbn [map app cell_events raw_permission].
  pose proof (ci_held _ _ _ _ _ _ _ I) as Hh.
  assert (Fresh : forall t s, cellinv L B bt held n q s -> (n <= t)%nat -> ~ In t (map fst s)).
  { intros t s0 I0 Ht H. apply in_map_iff in H. destruct H as ([u r] & E & H). cbn in E. subst u. apply (ci_tags _ _ _ _ _ _ _ I0) in H. lia. }
  assert (S1 : exists s1, cell_event q s (Reborrow (l_tag la) n SharedReadOnly (l_region la)) = Some s1 /\
     cellinv L B bt held (S n) q s1 /\ (covers (l_region la) q = true -> raw_in n n SharedReadOnly s1)).
  { cbn [cell_event may_write]. destruct (covers (l_region la) q) eqn:Ca.
    - destruct (ci_read L B bt held n q s us a Shared la) as (s0 & E & I0 & _); auto; [split; auto; rewrite Ea; now left|].
      rewrite E. exists ((n, SharedReadOnly) :: s0). splits; auto; [now apply (ci_push L B bt held n)|]. intros _.
      destruct (raw_push n n SharedReadOnly s0); auto. exfalso. eapply Fresh; eauto.
    - exists s. splits; auto; [|discriminate]. eapply ci_later_tag; eauto. }
  destruct S1 as (s1 & -> & I1 & W1).
  assert (S2 : exists s2, cell_event q s1 (Reborrow (l_tag lb) (n + 1) SharedReadOnly (l_region lb)) = Some s2 /\
     cellinv L B bt held (n + 2) q s2 /\ (covers (l_region la) q = true -> raw_in n n SharedReadOnly s2) /\
     (covers (l_region lb) q = true -> raw_in n (n + 1) SharedReadOnly s2)).
  { cbn [cell_event may_write]. destruct (covers (l_region lb) q) eqn:Cb.
    - destruct (ci_read L B bt held (S n) q s1 us b Shared lb) as (s0 & E & I0 & Sb & K); auto; [split; auto; rewrite Eb; now left|].
      rewrite E. exists (((n + 1)%nat, SharedReadOnly) :: s0). splits; auto.
      + replace (n + 2)%nat with (S (n + 1)) by lia. apply (ci_push L B bt held (S n)); auto. lia.
      + intros C. apply raw_keep; [lia|]. specialize (W1 C). eapply raw_sub; eauto. apply K; [apply W1|discriminate].
      + intros _. destruct (raw_push n (n + 1) SharedReadOnly s0) as [?|F]; auto; [lia|]. exfalso.
        apply in_map_iff in F. destruct F as ([u r] & E0 & F). cbn in E0. subst u. apply (ci_tags _ _ _ _ _ _ _ I0) in F. lia.
    - exists s1. splits; auto; [|discriminate]. eapply ci_later_tag; eauto. lia. }
  destruct S2 as (s2 & -> & I2 & W2 & W3).
  assert (S3 : exists s3, cell_event q s2 (Access false n (l_region la)) = Some s3 /\
     cellinv L B bt held (n + 2) q s3 /\ (covers (l_region lb) q = true -> raw_in n (n + 1) SharedReadOnly s3)).
  { cbn [cell_event may_write]. destruct (covers (l_region la) q) eqn:Ca.
    - destruct (ci_raw_read L B bt held n (n + 2) q s2 n SharedReadOnly) as (s3 & E & I3 & S & K); auto.
      rewrite E. exists s3. splits; auto. intros C. specialize (W3 C). eapply raw_sub; eauto. apply K; [apply W3|discriminate].
    - exists s2. auto. }
  destruct S3 as (s3 & -> & I3 & W4).
  cbn [cell_event]. destruct (covers (l_region lb) q) eqn:Cb; [|eauto].
  destruct (ci_raw_read L B bt held n (n + 2) q s3 (n + 1) SharedReadOnly) as (s4 & E & I4 & _); auto. rewrite E. eauto.
Qed.

(** An operand that is written to has no cell in common with one that is read. *)
Lemma operands_apart : forall (L B : nat -> Prop) bt held n q s us a c la lc, cellinv L B bt held n q s -> ready L bt us ->
  In (a, Shared) us -> In (c, Exclusive) us -> a <> c -> B a -> holds held q a la -> holds held q c lc -> strong lc = true -> False.
Proof.
  intros L B bt held n q s us a c la lc I R Ha Hc Hn Ba Hla Hlc Hs.
  destruct (R a Shared Ha) as [La Ra]. destruct (R c Exclusive Hc) as [Lc Rc].
  destruct (ci_item _ _ _ _ _ _ _ I a la La Hla) as (pa & Hpa & _). destruct (ci_item _ _ _ _ _ _ _ I c lc Lc Hlc) as (pc & Hpc & Hu).
  destruct (Nat.eq_dec (l_tag la) (l_tag lc)) as [E|E].
  - destruct (ci_same _ _ _ _ _ _ _ I a la c lc) as [_ F]; auto. apply (Ra c); auto.
  - specialize (Hu Hs). subst pc. pose proof Hpc as Hpc'. apply (in_map fst) in Hpa, Hpc'. cbn in Hpa, Hpc'.
    destruct (over_total s (l_tag la) (l_tag lc) Hpa Hpc' E) as [O|O].
    + apply (Rc a); auto. eapply (ci_write _ _ _ _ _ _ _ I); eauto.
    + apply (Ra c); auto. eapply (ci_unique _ _ _ _ _ _ _ I); eauto.
Qed.

Lemma matmul_events_ok : forall (L B : nat -> Prop) bt held n q s us a b c la lb lc, cellinv L B bt held n q s -> ready L bt us ->
  In (a, Shared) us -> In (b, Shared) us -> In (c, Exclusive) us -> a <> c -> b <> c -> B a -> B b ->
  leaves_of held a = [la] -> leaves_of held b = [lb] -> leaves_of held c = [lc] -> strong lc = true ->
  exists s', cell_events q s (product_events held n a b ++ raw_events true held c (n + 2)%nat ++
      product_reads held n a b ++ raw_uses true held c (n + 2)%nat) = Some s' /\ cellinv L B bt held (n + 3) q s'.
Proof.
  intros L B bt held n q s us a b c la lb lc I R Ha Hb Hc Na Nb Ba Bb Ea Eb Ec Hs.
  destruct (covers (l_region lc) q) eqn:Cc.
  - assert (Hlc : holds held q c lc) by (split; auto; rewrite Ec; now left).
    assert (Ca : covers (l_region la) q = false).
    { destruct (covers (l_region la) q) eqn:Ca; auto. exfalso.
      apply (operands_apart L B bt held n q s us a c la lc); auto. split; auto. rewrite Ea. now left. }
    assert (Cb : covers (l_region lb) q = false).
    { destruct (covers (l_region lb) q) eqn:Cb; auto. exfalso.
      apply (operands_apart L B bt held n q s us b c lb lc); auto. split; auto. rewrite Eb. now left. }
    unfold product_events, product_reads, raw_events, raw_uses. rewrite Ea, Eb, Ec.
    cbn [map app cell_events cell_event may_write raw_permission]. rewrite Ca, Cb, Cc.
    destruct (ci_access L B bt held n q s us c Exclusive true lc) as (s1 & p & E & I1 & _); auto; [split; auto; discriminate|].
    rewrite E. cbn [option_map]. rewrite access_top by reflexivity. eexists. split; [reflexivity|].
    replace (n + 3)%nat with (S (n + 2)) by lia. eapply ci_push; eauto. lia.
  - assert (N1 : forall s, cell_events q s (raw_events true held c (n + 2)%nat) = Some s).
    { intros s0. unfold raw_events. rewrite Ec. cbn [map cell_events cell_event]. now rewrite Cc. }
    assert (N2 : forall s, cell_events q s (raw_uses true held c (n + 2)%nat) = Some s).
    { intros s0. unfold raw_uses. rewrite Ec. cbn [map cell_events cell_event]. now rewrite Cc. }
    destruct (product_ok L B bt held n q s us a b la lb) as (s' & E & I'); auto. exists s'. split.
    + rewrite cell_events_app in E. rewrite cell_events_app. destruct (cell_events q s (product_events held n a b)) as [s1|]; [|discriminate].
      rewrite cell_events_app, N1, cell_events_app, E, N2. reflexivity.
    + eapply ci_later_tag; eauto. lia.
Qed.

(** ** Views *)

Section Parts.
Context {T : Type} {SC : HScalar T}.

Lemma parts_none : forall q mut raw (vs : list (matrix T)) t s,
  (forall v, In v vs -> covers (region_of v) q = false) -> cell_events q s (parts_events mut raw t vs) = Some s.
Proof.
  intros q mut raw vs. induction vs as [|v vs IH]; intros t s H; cbn [parts_events cell_events cell_event]; auto.
  rewrite H by now left. apply IH. intros w Hw. apply H. now right.
Qed.

Lemma parts_one : forall q (mut : bool) raw rp s (vs : list (matrix T)) t i v, nth_error vs i = Some v ->
  covers (region_of v) q = true -> (forall j w, nth_error vs j = Some w -> covers (region_of w) q = true -> j = i) ->
  (mut = true -> may_write rp = true) ->
  cell_events q ((raw, rp) :: s) (parts_events mut raw t vs) = Some (((t + i)%nat, view_permission mut) :: (raw, rp) :: s).
Proof.
  intros q mut raw rp s vs. induction vs as [|w vs IH]; intros t i v Hi Hc Hu Hm; [destruct i; discriminate|].
  cbn [parts_events cell_events cell_event]. destruct i as [|i]; cbn in Hi.
  - injection Hi as ->. rewrite Hc. rewrite access_top by (destruct mut; cbn; auto; discriminate). cbn [option_map].
    rewrite parts_none; [f_equal; f_equal; f_equal; lia|]. intros u Hin. apply In_nth_error in Hin. destruct Hin as [j Hj].
    destruct (covers (region_of u) q) eqn:E; auto. specialize (Hu (S j) u Hj E). discriminate.
  - assert (covers (region_of w) q = false).
    { destruct (covers (region_of w) q) eqn:E; auto. specialize (Hu O w eq_refl E). discriminate. }
    rewrite H. rewrite (IH (S t) i v); auto.
    + f_equal. f_equal. f_equal. lia.
    + intros j u Hj Hu'. specialize (Hu (S j) u Hj Hu'). lia.
Qed.

Lemma parts_leaves_length : forall mut (vs : list (matrix T)) t, length (parts_leaves mut t vs) = length vs.
Proof. intros mut vs. induction vs; intros t; cbn; auto. Qed.

Lemma parts_leaves_nth : forall mut (vs : list (matrix T)) t i k, In k (leaves_of (parts_leaves mut t vs) i) ->
  exists v, nth_error vs i = Some v /\ k = mkLeaf (t + i) (region_of v) mut false.
Proof.
  intros mut vs. induction vs as [|v vs IH]; intros t i k H; cbn [parts_leaves] in H.
  - destruct i; destruct H.
  - destruct i as [|i]; cbn in H.
    + destruct H as [<-|[]]. exists v. split; auto. f_equal. lia.
    + apply IH in H. destruct H as (w & Hw & ->). exists w. split; auto. f_equal. lia.
Qed.

Lemma parts_not_owned : forall q mut (vs : list (matrix T)) t i, filter (owned_at q) (leaves_of (parts_leaves mut t vs) i) = [].
Proof.
  intros q mut vs t i. destruct (filter (owned_at q) (leaves_of (parts_leaves mut t vs) i)) as [|k ks] eqn:F; auto.
  assert (J : In k (filter (owned_at q) (leaves_of (parts_leaves mut t vs) i))) by (rewrite F; now left).
  apply filter_In in J. destruct J as [J1 J2]. apply parts_leaves_nth in J1. destruct J1 as (v & _ & ->). discriminate J2.
Qed.
End Parts.

Lemma within_covers : forall r1 r2 q, within r1 r2 -> covers r1 q = true -> covers r2 q = true.
Proof. intros r1 r2 q (E & H1 & H2). unfold covers. rewrite E. lia. Qed.
