(** * Facts about the stacks of one cell. *)

From Coq Require Import ZifyBool ZifyNat ZifyN.
From Verif Require Import Machine MachineFacts Layouts Memory Matrix MatMul Spec MatrixSpec ExprSpec ProductSpec.
From Verif Require Import Program HistorySpec Borrow BorrowFacts Stacked.

(** The items of [s'] are items of [s] in the same order. *)
Inductive sub {A : Type} : list A -> list A -> Prop :=
| sub_nil : sub [] []
| sub_keep : forall a s' s, sub s' s -> sub (a :: s') (a :: s)
| sub_drop : forall a s' s, sub s' s -> sub s' (a :: s).

Lemma sub_refl : forall A (s : list A), sub s s.
Proof. induction s; constructor; auto. Qed.

Lemma sub_in : forall A (s' s : list A) a, sub s' s -> In a s' -> In a s.
Proof. intros A s' s a H. induction H; cbn; intuition. Qed.

Lemma sub_map : forall A B (f : A -> B) s' s, sub s' s -> sub (map f s') (map f s).
Proof. intros A B f s' s H. induction H; cbn; constructor; auto. Qed.

Lemma sub_nodup : forall A (s' s : list A), sub s' s -> NoDup s -> NoDup s'.
Proof.
  intros A s' s H. induction H; intros N; auto.
  - inversion N; subst. constructor; auto. intros E. eauto using sub_in.
  - inversion N; subst. auto.
Qed.

Lemma sub_split : forall A (s' s : list A), sub s' s -> forall a b, s' = a ++ b ->
  exists a' b', s = a' ++ b' /\ sub a a' /\ sub b b'.
Proof.
  intros A s' s H. induction H as [|x s' s H IH|x s' s H IH]; intros a b E.
  - symmetry in E. apply app_eq_nil in E. destruct E as [-> ->]. exists [], []. repeat split; constructor.
  - destruct a as [|y a].
    + cbn in E. subst b. exists [], (x :: s). repeat split; constructor. auto.
    + cbn in E. injection E as <- E. destruct (IH _ _ E) as (a' & b' & -> & Ha & Hb).
      exists (x :: a'), b'. repeat split; auto. now constructor.
  - destruct (IH _ _ E) as (a' & b' & -> & Ha & Hb). exists (x :: a'), b'. repeat split; auto. now constructor.
Qed.

(** The tag [t] is above the tag [u]. *)
Definition over (s : stack) (t u : tag) : Prop :=
  exists s1 s2, s = s1 ++ s2 /\ In t (map fst s1) /\ In u (map fst s2).

Lemma sub_over : forall s' s t u, sub s' s -> over s' t u -> over s t u.
Proof.
  intros s' s t u H (s1 & s2 & E & Ht & Hu). destruct (sub_split _ _ _ H _ _ E) as (a & b & -> & Ha & Hb).
  exists a, b. splits; auto; eapply sub_in; eauto; now apply sub_map.
Qed.

Lemma over_cons : forall s p n t u, over ((n, p) :: s) t u -> t <> n -> over s t u.
Proof.
  intros s p n t u (s1 & s2 & E & Ht & Hu) Hn. destruct s1 as [|i s1]; [destruct Ht|].
  cbn in E. injection E as <- E. exists s1, s2. splits; auto. cbn in Ht. destruct Ht; auto. congruence.
Qed.

Lemma over_in : forall s t u, over s t u -> In t (map fst s) /\ In u (map fst s).
Proof. intros s t u (s1 & s2 & -> & Ht & Hu). rewrite map_app, !in_app_iff. auto. Qed.

Lemma over_irrefl : forall s t, NoDup (map fst s) -> ~ over s t t.
Proof.
  intros s t N (s1 & s2 & -> & Ht & Hu). rewrite map_app in N. clear -N Ht Hu.
  induction s1 as [|i s1 IH]; [destruct Ht|]. cbn in N, Ht. inversion N; subst.
  destruct Ht as [<-|Ht]; [|auto]. apply H1. rewrite in_app_iff. auto.
Qed.

Lemma over_total : forall s t u, In t (map fst s) -> In u (map fst s) -> t <> u -> over s t u \/ over s u t.
Proof.
  intros s t u Ht Hu Hn. induction s as [|i s IH]; [destruct Ht|]. cbn in Ht, Hu.
  assert (C : forall v w, v = fst i -> In w (map fst s) -> over (i :: s) v w).
  { intros v w -> Hw. exists [i], s. splits; auto. cbn. auto. }
  destruct Ht as [Ht|Ht], Hu as [Hu|Hu]; subst; try congruence; auto.
  destruct (IH Ht Hu) as [H|H]; [left|right]; (eapply sub_over; [|exact H]); constructor; apply sub_refl.
Qed.

Lemma over_bottom : forall s t u i, over (s ++ [i]) t u -> NoDup (map fst (s ++ [i])) -> t <> fst i.
Proof.
  intros s t u i (s1 & s2 & E & Ht & Hu) N ->. rewrite E in N.
  destruct (exists_last (l := s2)) as (s3 & j & ->); [intros ->; destruct Hu|].
  rewrite app_assoc in E. apply app_inj_tail in E. destruct E as [_ <-].
  rewrite map_app in N. revert Ht N. generalize (map fst s1). intros l Ht N.
  induction l as [|v l IH]; [destruct Ht|]. cbn in N, Ht. inversion N; subst.
  destruct Ht as [->|Ht]; [|auto]. apply H1. rewrite in_app_iff, map_app, in_app_iff. cbn. auto.
Qed.

(** One item for each tag. *)
Lemma item_unique : forall (s : stack) t p p', NoDup (map fst s) -> In (t, p) s -> In (t, p') s -> p = p'.
Proof.
  intros s t p p'. induction s as [|[u r] s IH]; cbn; [tauto|]. intros N H1 H2. inversion N; subst.
  destruct H1 as [E1|H1], H2 as [E2|H2].
  - congruence.
  - injection E1 as -> ->. elim H3. apply (in_map fst) in H2. exact H2.
  - injection E2 as -> ->. elim H3. apply (in_map fst) in H1. exact H1.
  - auto.
Qed.

Lemma perm_dec : forall p p' : permission, {p = p'} + {p <> p'}.
Proof. decide equality. Qed.
Lemma item_dec : forall i j : tag * permission, {i = j} + {i <> j}.
Proof. decide equality; [apply perm_dec|apply Nat.eq_dec]. Qed.

Lemma access_spec : forall w t s p, NoDup (map fst s) -> In (t, p) s -> (w = true -> may_write p = true) ->
  exists s', access_cell w t s = Some s' /\ sub s' s /\ In (t, p) s' /\
    (forall u r, In (u, r) s -> In (u, r) s' \/ (over s u t /\ (w = false -> r = Unique))) /\
    (w = true -> exists s2, s' = (t, p) :: s2).
Proof.
  intros w t s p N H Hw. unfold access_cell. destruct w.
  - induction s as [|[u r] s IH]; [destruct H|]. cbn [write_cell]. inversion N; subst.
    destruct (Nat.eqb_spec u t) as [->|Hu].
    + assert (r = p). { eapply (item_unique ((t, r) :: s)); eauto. now left. } subst r. specialize (Hw eq_refl).
      unfold may_write in Hw. rewrite Hw. cbn [andb]. eexists. split; [reflexivity|]. splits; eauto using sub_refl.
    + cbn [andb]. destruct H as [E|H]; [congruence|]. destruct (IH H3 H) as (s' & E & S & I & K & P). exists s'.
      splits; auto; [now constructor|]. intros v q [Ev|Hv].
      * injection Ev as -> ->. right. split; [|discriminate]. exists [(v, q)], s. splits; auto; [now left|]. apply (in_map fst) in H. exact H.
      * destruct (K _ _ Hv) as [?|[O ?]]; auto. right. split; auto. eapply sub_over; [|exact O]. constructor. apply sub_refl.
  - induction s as [|[u r] s IH]; [destruct H|]. cbn [read_cell]. inversion N; subst.
    destruct (Nat.eqb_spec u t) as [->|Hu].
    + eexists. split; [reflexivity|]. splits; auto using sub_refl. discriminate.
    + destruct H as [E|H]; [congruence|]. destruct (IH H3 H) as (s' & E & S & I & K & P). rewrite E.
      assert (Ov : over ((u, r) :: s) u t).
      { exists [(u, r)], s. splits; auto; [now left|]. apply (in_map fst) in H. exact H. }
      assert (G : forall v q, In (v, q) s -> In (v, q) s' \/ (over ((u, r) :: s) v t /\ (false = false -> q = Unique))).
      { intros v q Hv. destruct (K _ _ Hv) as [?|[O ?]]; auto. right. split; auto. eapply sub_over; [|exact O]. constructor. apply sub_refl. }
      eexists. split; [reflexivity|]. destruct r.
      * splits; auto; [now constructor|]. intros v q [Ev|Hv]; auto. injection Ev as <- <-. auto.
      * splits; [now constructor|now right| |discriminate]. intros v q [Ev|Hv]; [left; now left|]. destruct (G _ _ Hv); auto. left. now right.
      * splits; [now constructor|now right| |discriminate]. intros v q [Ev|Hv]; [left; now left|]. destruct (G _ _ Hv); auto. left. now right.
Qed.

Lemma cell_events_app : forall q es1 es2 s,
  cell_events q s (es1 ++ es2) = match cell_events q s es1 with Some s' => cell_events q s' es2 | None => None end.
Proof. intros q es1. induction es1 as [|e es IH]; intros es2 s; cbn; auto. destruct (cell_event q s e); auto. Qed.

(** The access of a tag that is on top. *)
Lemma access_top : forall w t p s, (w = true -> may_write p = true) -> access_cell w t ((t, p) :: s) = Some ((t, p) :: s).
Proof.
  intros w t p s H. destruct w; cbn; rewrite Nat.eqb_refl; auto. specialize (H eq_refl). unfold may_write in H. now rewrite H.
Qed.

(** ** Ended by a use *)

(** [z] borrows from [x] in such a way that the use [a] of [x] ends it. *)
Definition ends (bt : list slot) (x : nat) (a : access) (z : nat) : Prop :=
  exists w e, below bt z w /\ In (x, e) (loans_of bt w) /\ conflict a e = true.

Definition ordered (bt : list slot) : Prop := forall y p e, In (p, e) (loans_of bt y) -> (p < y)%nat.

Lemma below_le : forall bt y x, ordered bt -> below bt y x -> (x <= y)%nat.
Proof. intros bt y x O B. induction B as [|x z e B IH H]; auto. apply O in H. lia. Qed.

Lemma ends_irrefl : forall bt x a, ordered bt -> ~ ends bt x a x.
Proof. intros bt x a O (w & e & B & H & _). apply O in H. apply below_le in B; auto. lia. Qed.

Lemma conflict_shared : forall a e, conflict Shared e = true -> conflict a e = true.
Proof. intros a e. unfold conflict. destruct e; auto. discriminate. Qed.
Lemma conflict_exclusive : forall a e, a <> Shared -> conflict a e = true.
Proof. intros a e H. unfold conflict. destruct e, a; auto; congruence. Qed.

Lemma ends_shared : forall bt x a z, ends bt x Shared z -> ends bt x a z.
Proof. intros bt x a z (w & e & B & H & C). exists w, e. splits; auto. now apply conflict_shared. Qed.
Lemma ends_weaken : forall bt x a b z, a <> Shared -> ends bt x b z -> ends bt x a z.
Proof. intros bt x a b z Ha (w & e & B & H & C). exists w, e. splits; auto. now apply conflict_exclusive. Qed.

Lemma ends_mono : forall bt bt' x a z, (forall y l, In l (loans_of bt y) -> In l (loans_of bt' y)) ->
  ends bt x a z -> ends bt' x a z.
Proof. intros bt bt' x a z M (w & e & B & H & C). exists w, e. splits; auto. eapply below_mono; eauto. Qed.

Lemma ends_below : forall bt x a y z, below bt z y -> ends bt x a y -> ends bt x a z.
Proof. intros bt x a y z B (w & e & B' & H & C). exists w, e. splits; auto. eapply below_trans; eauto. Qed.

(** What [y] takes along from [x] ends [y], too. *)
Lemma ends_inherit : forall bt x a y z, (forall l, In l (loans_of bt y) -> In l (loans_of bt z)) ->
  ends bt x a y -> ends bt x a z.
Proof.
  intros bt x a y z M (w & e & B & H & C). apply below_first in B. destruct B as [<-|(p & e' & Hp & B)].
  - exists z, e. splits; auto. constructor.
  - exists w, e. splits; auto. eapply below_step; eauto.
Qed.

Lemma calm_ends : forall bt x a z, closed bt -> calm bt x a -> is_live bt z = true -> ~ ends bt x a z.
Proof.
  intros bt x a z C K Hz (w & e & B & H & F). assert (conflict a e = false) by (apply (K w e); [eapply below_live; eauto|exact H]). congruence.
Qed.
