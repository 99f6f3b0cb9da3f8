(** * The invariant of one cell when matrices are added. *)

From Coq Require Import ZifyBool ZifyNat ZifyN.
From Verif Require Import Machine MachineFacts Layouts Memory Matrix MatMul Spec MatrixSpec ExprSpec ProductSpec.
From Verif Require Import Program HistorySpec Borrow BorrowFacts Stacked StackedFacts StackedCell.

Lemma leaves_old : forall held new x, (x < length held)%nat -> leaves_of (held ++ new) x = leaves_of held x.
Proof. intros held new x H. unfold leaves_of. now apply app_nth1. Qed.
Lemma leaves_new : forall held new k, leaves_of (held ++ new) (length held + k) = leaves_of new k.
Proof. intros held new k. unfold leaves_of. rewrite app_nth2 by lia. f_equal. lia. Qed.
Lemma holds_old : forall held new q x l, (x < length held)%nat -> (holds (held ++ new) q x l <-> holds held q x l).
Proof. intros held new q x l H. unfold holds. now rewrite leaves_old. Qed.
Lemma holds_bound : forall held q x l, holds held q x l -> (x < length held)%nat.
Proof.
  intros held q x l [H _]. unfold leaves_of in H. destruct (Nat.lt_ge_cases x (length held)); auto.
  rewrite nth_overflow in H by auto. destruct H.
Qed.

Section Extend.
Variables L L' B B' : nat -> Prop.
Variables bt bt' : list slot.
Variables held new : list (list leaf).
Variable q : nat * N.

Hypothesis Old : forall x, (x < length held)%nat -> L' x -> L x.
Hypothesis OldB : forall x, (x < length held)%nat -> B' x -> B x.
Hypothesis Loans : forall y l, In l (loans_of bt y) -> In l (loans_of bt' y).

Lemma ci_extend : forall n n' s s', cellinv L B bt held n q s ->
  (n <= n')%nat -> (forall t p, In (t, p) s' -> (t < n')%nat) -> NoDup (map fst s') ->
  (forall i, In i s -> In i s') -> (forall t p, (t < n)%nat -> In (t, p) s' -> In (t, p) s) ->
  (forall t u, (t < n)%nat -> over s' t u -> over s t u) ->
  (forall y k, (length held <= y)%nat -> holds (held ++ new) q y k -> (l_tag k < n')%nat) ->
  (forall y k, (length held <= y)%nat -> L' y -> holds (held ++ new) q y k ->
     (exists p, In (l_tag k, p) s' /\ (strong k = true -> p = Unique)) /\
     (l_owned k = true -> forall u, ~ over s' (l_tag k) u)) ->
  (forall x l z k, L' x -> L' z -> holds (held ++ new) q x l -> holds (held ++ new) q z k ->
     (length held <= x)%nat \/ (length held <= z)%nat ->
     (over s' (l_tag k) (l_tag l) ->
        (strong l = true -> ends bt' x Exclusive z) /\ (In (l_tag k, Unique) s' -> ends bt' x Shared z)) /\
     (x <> z -> l_tag l = l_tag k -> B' x \/ l_owned l = true ->
        ends bt' x Exclusive z /\ (strong k = true -> ends bt' x Shared z))) ->
  (forall y, (length held <= y)%nat -> L' y -> (length (filter (owned_at q) (leaves_of (held ++ new) y)) <= 1)%nat) ->
  cellinv L' B' bt' (held ++ new) n' q s'.
Proof.
  intros n n' s s' I Hn Ht Nd Hi Hi' Ho Hk HI HP H1. destruct I as [ci_tags0 ci_nodup0 ci_held0 ci_item0 ci_write0 ci_unique0 ci_same0 ci_bottom0 ci_once0].
  assert (C : forall x l, holds (held ++ new) q x l ->
    ((x < length held)%nat /\ holds held q x l) \/ (length held <= x)%nat).
  { intros x l H. destruct (Nat.lt_ge_cases x (length held)); auto. left. rewrite holds_old in H; auto. }
  constructor; auto.
  - intros x l H. destruct (C _ _ H) as [[H2 H3]|H2]; eauto. apply ci_held0 in H3. lia.
  - intros x l Hx H. destruct (C _ _ H) as [[H2 H3]|H2]; [|exact (proj1 (HI x l H2 Hx H))].
    destruct (ci_item0 x l) as (p & Hp & Hs); eauto.
  - intros x l z k Hx Hz Hl Hk' Hs O. destruct (C _ _ Hl) as [[H2 H3]|H2]; [destruct (C _ _ Hk') as [[H4 H5]|H4]|].
    + apply (ends_mono bt bt'); auto. apply (ci_write0 x l z k); auto. apply Ho; auto. now apply (ci_held0 z k).
    + destruct (HP x l z k) as [P1 _]; auto. now apply P1.
    + destruct (HP x l z k) as [P1 _]; auto. now apply P1.
  - intros x l z k Hx Hz Hl Hk' Hs O. destruct (C _ _ Hl) as [[H2 H3]|H2]; [destruct (C _ _ Hk') as [[H4 H5]|H4]|].
    + apply (ends_mono bt bt'); auto. apply (ci_unique0 x l z k); auto; [apply Hi'|apply Ho]; auto; now apply (ci_held0 z k).
    + destruct (HP x l z k) as [P1 _]; auto. now apply P1.
    + destruct (HP x l z k) as [P1 _]; auto. now apply P1.
  - intros x l z k Hx Hz Hne Hl Hk' E Hb. destruct (C _ _ Hl) as [[H2 H3]|H2]; [destruct (C _ _ Hk') as [[H4 H5]|H4]|].
    + destruct (ci_same0 x l z k) as [E1 E2]; auto; [destruct Hb; auto|]. split; intros; eapply ends_mono; eauto.
    + destruct (HP x l z k) as [_ P2]; auto.
    + destruct (HP x l z k) as [_ P2]; auto.
  - intros x l u Hx Hl Ho' O. destruct (C _ _ Hl) as [[H2 H3]|H2].
    + apply (ci_bottom0 x l u); auto. apply Ho; auto. now apply (ci_held0 x l).
    + destruct (HI x l H2 Hx Hl) as [_ F]. eapply F; eauto.
  - intros x Hx. destruct (Nat.lt_ge_cases x (length held)); [|auto]. rewrite leaves_old; auto.
Qed.

(** The new matrices do not reach the cell. *)
Lemma ci_none : forall n s, cellinv L B bt held n q s ->
  (forall y k, (length held <= y)%nat -> ~ holds (held ++ new) q y k) -> cellinv L' B' bt' (held ++ new) n q s.
Proof.
  intros n s I H. eapply ci_extend; try exact I; auto.
  - exact (ci_tags _ _ _ _ _ _ _ I).
  - exact (ci_nodup _ _ _ _ _ _ _ I).
  - intros y k Hy Hk. now elim (H y k).
  - intros y k Hy _ Hk. now elim (H y k).
  - intros x l z k _ _ Hl Hk [Hx|Hx]; [now elim (H x l)|now elim (H z k)].
  - intros y Hy _. destruct (filter (owned_at q) (leaves_of (held ++ new) y)) as [|k ks] eqn:F; [cbn; lia|].
    assert (J : In k (filter (owned_at q) (leaves_of (held ++ new) y))) by (rewrite F; now left).
    apply filter_In in J. destruct J as [J1 J2]. elim (H y k Hy). split; auto. unfold owned_at in J2. now apply andb_true_iff in J2.
Qed.

(** A fresh allocation. *)
Lemma ci_fresh : forall n s k, cellinv L B bt held n q s -> new = [[k]] -> l_tag k = n ->
  covers (l_region k) q = true -> (forall x l, L' x -> ~ holds held q x l) ->
  cellinv L' B' bt' (held ++ new) (S n) q [(n, Unique)].
Proof.
  intros n s k I En Et Ec Hno. subst new.
  assert (A : forall y l, holds (held ++ [[k]]) q y l -> ((y < length held)%nat /\ holds held q y l) \/ (y = length held /\ l = k)).
  { intros y l H. destruct (Nat.lt_ge_cases y (length held)) as [Hy|Hy]; [left; rewrite holds_old in H; auto|right].
    pose proof (holds_bound _ _ _ _ H) as Hb. rewrite app_length in Hb. cbn in Hb. assert (E : y = (length held + 0)%nat) by lia.
    destruct H as [H _]. rewrite E, leaves_new in H. cbn in H. destruct H as [<-|[]]. split; auto. lia. }
  assert (N1 : forall t u, ~ over [(n, Unique)] t u).
  { intros t u O. pose proof (over_in _ _ _ O) as [H1 H2]. cbn in H1, H2. destruct H1 as [<-|[]], H2 as [<-|[]].
    revert O. apply over_irrefl. cbn. constructor; [intros []|constructor]. }
  constructor.
  - intros t p [E|[]]. injection E as <- <-. lia.
  - cbn. constructor; [intros []|constructor].
  - intros x l H. destruct (A _ _ H) as [[_ H2]|[_ ->]]; [|lia]. apply (ci_held _ _ _ _ _ _ _ I) in H2. lia.
  - intros x l Hx H. destruct (A _ _ H) as [[_ H2]|[_ ->]]; [now elim (Hno x l)|]. exists Unique. rewrite Et. split; auto. now left.
  - intros x l z k' _ _ _ _ _ O. now elim (N1 _ _ O).
  - intros x l z k' _ _ _ _ _ O. now elim (N1 _ _ O).
  - intros x l z k' Hx Hz Hne H1 H2 _ _. exfalso. destruct (A _ _ H1) as [[_ H3]|[E1 _]]; [now elim (Hno x l)|].
    destruct (A _ _ H2) as [[_ H3]|[E2 _]]; [now elim (Hno z k')|]. congruence.
  - intros x l u _ _ _. apply N1.
  - intros x Hx. destruct (Nat.lt_ge_cases x (length held)) as [H|H].
    + rewrite leaves_old by auto. apply (ci_once _ _ _ _ _ _ _ I). auto.
    + destruct (Nat.eq_dec x (length held)) as [->|H2].
      * replace (length held) with (length held + 0)%nat by lia. rewrite leaves_new. cbn. destruct (owned_at q k); cbn; lia.
      * unfold leaves_of. rewrite nth_overflow; [cbn; lia|]. rewrite app_length. cbn. lia.
Qed.

Variable us : list (nat * access).
Hypothesis Order : ordered bt'.
Hypothesis Ready : ready L bt us.
Hypothesis Bound : forall x, L x -> (x < length held)%nat.
Hypothesis OldLoans : forall x l, (x < length held)%nat -> In l (loans_of bt' x) -> In l (loans_of bt x).
Hypothesis NotMoved : forall x, (x < length held)%nat -> L' x -> ~ In (x, Moved) us.

(** What ends an operand ends what borrows by it. *)
Lemma ends_lent : forall x a y x0 b, In (x, a) us -> incl (lent bt (x, a)) (loans_of bt' y) ->
  ends bt x0 b x -> ends bt' x0 b y.
Proof.
  intros x a y x0 b Hu Hi E. apply (ends_mono bt bt') in E; auto.
  assert (Hx : (x < length held)%nat) by (apply Bound; now apply (Ready x a)).
  destruct a; cbn [lent snd fst] in Hi.
  - apply (ends_below _ _ _ x); auto. eapply below_loan; [constructor|]. apply Hi. now left.
  - apply (ends_below _ _ _ x); auto. eapply below_loan; [constructor|]. apply Hi. now left.
  - apply (ends_inherit _ _ _ x); [|exact E]. intros l Hl. apply Hi. apply OldLoans; auto.
Qed.

(** A matrix that reaches memory as its operands do. *)
Lemma ci_derive : forall n s ks, cellinv L B bt held n q s -> new = [ks] ->
  (forall u, In u us -> incl (lent bt u) (loans_of bt' (length held))) -> ~ B' (length held) ->
  (forall k, In k ks -> covers (l_region k) q = true -> exists x a l, In (x, a) us /\ holds held q x l /\
     l_tag k = l_tag l /\ (strong k = true -> strong l = true /\ a <> Shared) /\
     (l_owned k = true -> l_owned l = true /\ a = Moved)) ->
  (length (filter (owned_at q) ks) <= 1)%nat ->
  cellinv L' B' bt' (held ++ new) n q s.
Proof.
  intros n s ks I En Hlent HB Hsrc H1.
  assert (A : forall y k, (length held <= y)%nat -> holds (held ++ new) q y k -> y = length held /\
     exists x a l, In (x, a) us /\ holds held q x l /\
     l_tag k = l_tag l /\ (strong k = true -> strong l = true /\ a <> Shared) /\
     (l_owned k = true -> l_owned l = true /\ a = Moved)).
  { intros y k Hy H. rewrite En in H. pose proof (holds_bound _ _ _ _ H) as Hb. rewrite app_length in Hb. cbn in Hb.
    assert (E : y = (length held + 0)%nat) by lia. split; [lia|]. destruct H as [H Hc]. rewrite E, leaves_new in H. cbn in H.
    apply Hsrc; auto. }
  assert (Lx : forall x a, In (x, a) us -> L x) by (intros x a H; now apply (Ready x a)).
  eapply ci_extend; try exact I; auto.
  - exact (ci_tags _ _ _ _ _ _ _ I).
  - exact (ci_nodup _ _ _ _ _ _ _ I).
  - intros y k Hy Hk. destruct (A y k Hy Hk) as (_ & x & a & l & _ & Hl & -> & _). eapply (ci_held _ _ _ _ _ _ _ I); eauto.
  - intros y k Hy _ Hk. destruct (A y k Hy Hk) as (_ & x & a & l & Hu & Hl & -> & Hs & Ho). split.
    + destruct (ci_item _ _ _ _ _ _ _ I x l (Lx _ _ Hu) Hl) as (p & Hp & Hps). exists p. split; auto. intros S. apply Hps. now apply Hs.
    + intros O u. eapply (ci_bottom _ _ _ _ _ _ _ I); eauto. now apply Ho.
  - intros x l z k Lx' Lz' Hl Hk Hnew.
    destruct (Nat.lt_ge_cases x (length held)) as [Hx|Hx].
    + destruct Hnew as [Hnew|Hz]; [lia|]. rewrite holds_old in Hl by auto.
      destruct (A z k Hz Hk) as (Ez & x1 & a1 & l1 & Hu1 & Hl1 & Et & Hs1 & Ho1). rewrite Et, Ez. split; [intros O; split|].
      * intros S. eapply ends_lent; [exact Hu1|apply Hlent; exact Hu1|]. eapply (ci_write _ _ _ _ _ _ _ I); eauto.
      * intros U. eapply ends_lent; [exact Hu1|apply Hlent; exact Hu1|]. eapply (ci_unique _ _ _ _ _ _ _ I); eauto.
      * intros Hne E Hb.
        destruct (Nat.eq_dec x x1) as [<-|Hn1].
        { assert (Ha : a1 <> Moved) by (intros ->; apply (NotMoved x); auto).
          pose proof (Hlent _ Hu1) as Hin. destruct a1; cbn [lent snd fst] in Hin; [| |now elim Ha].
          - split; [exists (length held), false; splits; [constructor|apply Hin; now left|reflexivity]|].
            intros S. now elim (proj2 (Hs1 S)).
          - split; [|intros _]; (exists (length held), true; splits; [constructor|apply Hin; now left|reflexivity]). }
        { destruct (ci_same _ _ _ _ _ _ _ I x l x1 l1) as [E1 E2]; eauto; [destruct Hb; auto|]. split.
          - eapply ends_lent; [exact Hu1|apply Hlent; exact Hu1|exact E1].
          - intros S. eapply ends_lent; [exact Hu1|apply Hlent; exact Hu1|]. apply E2. now apply Hs1. }
    + destruct (A x l Hx Hl) as (Ex & x1 & a1 & l1 & Hu1 & Hl1 & Et & Hs1 & Ho1). rewrite Et.
      destruct (Nat.lt_ge_cases z (length held)) as [Hz|Hz].
      * rewrite holds_old in Hk by auto. split; [intros O; split|].
        { intros S. exfalso. destruct (Hs1 S) as [S1 Ha1]. eapply (ready_exclusive L bt us x1 a1 z); eauto.
          eapply (ci_write _ _ _ _ _ _ _ I); eauto. }
        { intros U. exfalso. eapply (ready_shared L bt us x1 a1 z); eauto. eapply (ci_unique _ _ _ _ _ _ _ I); eauto. }
        { intros Hne E [Hb|Ho]; [subst x; contradiction|]. exfalso. destruct (Ho1 Ho) as [Ho' ->].
          destruct (Nat.eq_dec x1 z) as [->|Hn1]; [now apply (NotMoved z)|].
          destruct (ci_same _ _ _ _ _ _ _ I x1 l1 z k) as [E1 _]; eauto.
          eapply (ready_exclusive L bt us x1 Moved z); eauto. discriminate. }
      * destruct (A z k Hz Hk) as (Ez & x2 & a2 & l2 & Hu2 & Hl2 & Et2 & Hs2 & Ho2). rewrite Et2. split; [intros O; split|].
        { intros S. exfalso. destruct (Hs1 S) as [S1 Ha1]. eapply (ready_exclusive L bt us x1 a1 x2); eauto.
          eapply (ci_write _ _ _ _ _ _ _ I); eauto. }
        { intros U. exfalso. eapply (ready_shared L bt us x1 a1 x2); eauto. eapply (ci_unique _ _ _ _ _ _ _ I); eauto. }
        { intros Hne. congruence. }
  - intros y Hy _. rewrite En. destruct (Nat.eq_dec y (length held)) as [->|H2].
    + replace (length held) with (length held + 0)%nat by lia. rewrite leaves_new. exact H1.
    + unfold leaves_of. rewrite nth_overflow; [cbn; lia|]. rewrite app_length. cbn. lia.
Qed.

(** A view: a new tag on top. *)
Lemma ci_view : forall n s x l (mut : bool) t y0 k0, cellinv L B bt held n q s ->
  In (x, mut_access mut) us -> holds held q x l -> B x -> (mut = true -> strong l = true) -> (n <= t)%nat ->
  (length held <= y0)%nat -> l_tag k0 = t -> l_owned k0 = false -> (strong k0 = true -> mut = true) ->
  In (x, mut) (loans_of bt' y0) ->
  (forall y k, (length held <= y)%nat -> holds (held ++ new) q y k -> y = y0 /\ k = k0) ->
  (forall y, (length held <= y)%nat -> filter (owned_at q) (leaves_of (held ++ new) y) = []) ->
  cellinv L' B' bt' (held ++ new) (S t) q ((t, view_permission mut) :: s).
Proof.
  intros n s x l mut t y0 k0 I Hu Hl Bx Hst Hn Hy0 Et Ho Hs0 Hloan A Hown.
  assert (Lx : L x) by now apply (Ready x (mut_access mut)).
  assert (Fr : forall x l, holds held q x l -> l_tag l <> t) by (intros x1 l1 H; apply (ci_held _ _ _ _ _ _ _ I) in H; lia).
  assert (Nd : NoDup (map fst ((t, view_permission mut) :: s))).
  { cbn. constructor; [|exact (ci_nodup _ _ _ _ _ _ _ I)]. intros H. apply in_map_iff in H. destruct H as ([u r] & E & H).
    cbn in E. subst u. apply (ci_tags _ _ _ _ _ _ _ I) in H. lia. }
  eapply ci_extend; try exact I; auto.
  - intros u r [E|H]; [injection E as <- <-; lia|]. apply (ci_tags _ _ _ _ _ _ _ I) in H. lia.
  - intros i H. now right.
  - intros u r Hlt [E|H]; auto. injection E as <- <-. lia.
  - intros u v Hlt O. apply over_cons in O; auto. lia.
  - intros y k Hy Hk. destruct (A y k Hy Hk) as [-> ->]. lia.
  - intros y k Hy _ Hk. destruct (A y k Hy Hk) as [-> ->]. split; [|congruence]. exists (view_permission mut). rewrite Et. split; [now left|].
    intros S. now rewrite (Hs0 S).
  - intros x1 l1 z k Lx1 Lz Hl1 Hk Hnew.
    assert (Over : forall u, over ((t, view_permission mut) :: s) u t -> False).
    { intros u O. assert (u <> t) by (intros ->; revert O; now apply over_irrefl). apply over_cons in O; auto.
      apply over_in in O. destruct O as [_ O]. apply in_map_iff in O. destruct O as ([v r] & E & H2). cbn in E. subst v.
      apply (ci_tags _ _ _ _ _ _ _ I) in H2. lia. }
    destruct (Nat.lt_ge_cases x1 (length held)) as [Hx1|Hx1].
    2:{ destruct (A _ _ Hx1 Hl1) as [-> ->]. rewrite Et. split; [intros O; now elim (Over _ O)|]. intros Hne E _. exfalso.
        destruct (Nat.lt_ge_cases z (length held)) as [Hz|Hz].
        - rewrite holds_old in Hk by auto. apply Fr in Hk. congruence.
        - destruct (A _ _ Hz Hk) as [-> _]. congruence. }
    destruct Hnew as [Hnew|Hz]; [lia|]. destruct (A _ _ Hz Hk) as [-> ->]. rewrite holds_old in Hl1 by auto.
    split; [|intros _ E; apply Fr in Hl1; congruence]. intros _. rewrite Et.
    assert (Ext : forall b, ends bt x1 b x -> ends bt' x1 b y0).
    { intros b E. eapply ends_lent; [exact Hu| |exact E]. destruct mut; intros i [<-|[]]; exact Hloan. }
    assert (Dir : forall b, conflict b mut = true -> ends bt' x b y0).
    { intros b C. exists y0, mut. splits; auto. constructor. }
    assert (Lx1' : L x1) by auto.
    destruct (ci_item _ _ _ _ _ _ _ I x l Lx Hl) as (p & Hp & Hps).
    destruct (ci_item _ _ _ _ _ _ _ I x1 l1 Lx1' Hl1) as (p1 & Hp1 & Hps1).
    assert (Pos : x1 = x \/ (x1 <> x /\ l_tag l = l_tag l1) \/ over s (l_tag l1) (l_tag l) \/ over s (l_tag l) (l_tag l1)).
    { destruct (Nat.eq_dec x1 x); auto. destruct (Nat.eq_dec (l_tag l) (l_tag l1)); auto. right. right.
      apply over_total; auto; [apply (in_map fst) in Hp1; exact Hp1|apply (in_map fst) in Hp; exact Hp]. }
    split.
    + intros S1. destruct Pos as [->|[[Hne E]|[O|O]]].
      * apply Dir. now apply conflict_exclusive.
      * exfalso. destruct (ci_same _ _ _ _ _ _ _ I x l x1 l1) as [_ E2]; auto.
        eapply (ready_shared L bt us x (mut_access mut) x1); eauto.
      * exfalso. rewrite (Hps1 S1) in Hp1. eapply (ready_shared L bt us x (mut_access mut) x1); eauto.
        eapply (ci_unique _ _ _ _ _ _ _ I); eauto.
      * apply Ext. eapply (ci_write _ _ _ _ _ _ _ I); eauto.
    + intros U. assert (mut = true).
      { destruct U as [E|H].
        - destruct mut; auto. discriminate E.
        - exfalso. apply (ci_tags _ _ _ _ _ _ _ I) in H. lia. }
      subst mut. specialize (Hst eq_refl). specialize (Hps Hst). subst p.
      destruct Pos as [->|[[Hne E]|[O|O]]].
      * now apply Dir.
      * exfalso. destruct (ci_same _ _ _ _ _ _ _ I x l x1 l1) as [E1 _]; auto.
        eapply (ready_exclusive L bt us x Exclusive x1); eauto. discriminate.
      * exfalso. eapply (ready_exclusive L bt us x Exclusive x1); eauto; [discriminate|].
        eapply (ci_write _ _ _ _ _ _ _ I); eauto.
      * apply Ext. eapply (ci_unique _ _ _ _ _ _ _ I); eauto.
  - intros y Hy _. rewrite Hown by auto. cbn. lia.
Qed.
End Extend.
