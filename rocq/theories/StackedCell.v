(** * The invariant of one cell. *)

From Coq Require Import ZifyBool ZifyNat ZifyN.
From Verif Require Import Machine MachineFacts Layouts Memory Matrix MatMul Spec MatrixSpec ExprSpec ProductSpec.
From Verif Require Import Program HistorySpec Borrow BorrowFacts Stacked StackedFacts.

Definition strong (l : leaf) : bool := l_write l || l_owned l.

(** The matrix [x] reaches the cell [q] by [l]. *)
Definition holds (held : list (list leaf)) (q : nat * N) (x : nat) (l : leaf) : Prop :=
  In l (leaves_of held x) /\ covers (l_region l) q = true.

Definition owned_at (q : nat * N) (l : leaf) : bool := l_owned l && covers (l_region l) q.

(** [L]: the matrices that may be used; [B]: the base matrices. What is above an item
    of a matrix is ended by the uses of the matrix that remove it. *)
Record cellinv (L B : nat -> Prop) (bt : list slot) (held : list (list leaf)) (n : tag) (q : nat * N) (s : stack) : Prop := {
  ci_tags : forall t p, In (t, p) s -> (t < n)%nat;
  ci_nodup : NoDup (map fst s);
  ci_held : forall x l, holds held q x l -> (l_tag l < n)%nat;
  ci_item : forall x l, L x -> holds held q x l ->
    exists p, In (l_tag l, p) s /\ (strong l = true -> p = Unique);
  ci_write : forall x l z k, L x -> L z -> holds held q x l -> holds held q z k ->
    strong l = true -> over s (l_tag k) (l_tag l) -> ends bt x Exclusive z;
  ci_unique : forall x l z k, L x -> L z -> holds held q x l -> holds held q z k ->
    In (l_tag k, Unique) s -> over s (l_tag k) (l_tag l) -> ends bt x Shared z;
  ci_same : forall x l z k, L x -> L z -> x <> z -> holds held q x l -> holds held q z k ->
    l_tag l = l_tag k -> B x \/ l_owned l = true ->
    ends bt x Exclusive z /\ (strong k = true -> ends bt x Shared z);
  ci_bottom : forall x l u, L x -> holds held q x l -> l_owned l = true -> ~ over s (l_tag l) u;
  ci_once : forall x, L x -> (length (filter (owned_at q) (leaves_of held x)) <= 1)%nat
}.

Lemma ci_weaken : forall (L L' B : nat -> Prop) bt bt' held n q s, cellinv L B bt held n q s ->
  (forall x, L' x -> L x) -> (forall y l, In l (loans_of bt y) -> In l (loans_of bt' y)) ->
  cellinv L' B bt' held n q s.
Proof.
  intros L L' B bt bt' held n q s I HL HB. destruct I. constructor; auto.
  - intros x l Hx Hl. apply (ci_item0 x l); auto.
  - intros. eapply ends_mono; eauto.
  - intros. eapply ends_mono; eauto.
  - intros x l z k Hx Hz Hn H1 H2 E O. destruct (ci_same0 x l z k) as [E1 E2]; auto.
    split; intros; eapply ends_mono; eauto.
  - intros x l u Hx H O. eapply ci_bottom0; eauto.
Qed.

(** Fewer items, but none of the matrices that may be used goes. *)
Lemma ci_sub : forall L B bt held n q s s', cellinv L B bt held n q s -> sub s' s ->
  (forall x l p, L x -> holds held q x l -> In (l_tag l, p) s -> In (l_tag l, p) s') ->
  cellinv L B bt held n q s'.
Proof.
  intros L B bt held n q s s' I S K. destruct I. constructor; auto.
  - intros t p H. eapply ci_tags0. eapply sub_in; eauto.
  - eapply sub_nodup; [|eassumption]. now apply sub_map.
  - intros x l Hx Hl. destruct (ci_item0 x l Hx Hl) as (p & Hp & Hs). eauto.
  - intros. eapply ci_write0; eauto. eapply sub_over; eauto.
  - intros. eapply ci_unique0; eauto; [eapply sub_in; eauto|eapply sub_over; eauto].
  - intros x l u Hx Hl Ho O. apply (ci_bottom0 x l u); auto. eapply sub_over; eauto.
Qed.

(** A new tag that no matrix has. *)
Lemma ci_push : forall L B bt held n t p q s, cellinv L B bt held n q s -> (n <= t)%nat ->
  cellinv L B bt held (S t) q ((t, p) :: s).
Proof.
  intros L B bt held n t p q s I Hn. destruct I.
  assert (F : forall x l, holds held q x l -> l_tag l <> t) by (intros x l H; apply ci_held0 in H; lia).
  constructor; auto.
  - intros u r [E|H]; [injection E as <- <-; lia|]. apply ci_tags0 in H. lia.
  - cbn. constructor; auto. intros H. apply in_map_iff in H. destruct H as ([u r] & E & H). cbn in E. subst u. apply ci_tags0 in H. lia.
  - intros x l H. apply ci_held0 in H. lia.
  - intros x l Hx Hl. destruct (ci_item0 x l Hx Hl) as (r & Hr & Hs). exists r. split; auto. now right.
  - intros x l z k Hx Hz H1 H2 Hs O. apply over_cons in O; eauto.
  - intros x l z k Hx Hz H1 H2 Hu O. apply over_cons in O; eauto. destruct Hu as [E|Hu]; eauto.
    injection E as E _. apply F in H2. congruence.
  - intros x l u Hx Hl Ho O. apply over_cons in O; eauto. eapply ci_bottom0; eauto.
Qed.

Lemma ci_later_tag : forall L B bt held n n' q s, cellinv L B bt held n q s -> (n <= n')%nat -> cellinv L B bt held n' q s.
Proof.
  intros L B bt held n n' q s I Hn. destruct I. constructor; auto.
  - intros t p H. apply ci_tags0 in H. lia.
  - intros x l H. apply ci_held0 in H. lia.
Qed.

(** Operands that may be used together. *)
Definition ready (L : nat -> Prop) (bt : list slot) (us : list (nat * access)) : Prop :=
  forall x a, In (x, a) us -> L x /\ forall z, L z -> ~ ends bt x a z.

Lemma ready_shared : forall L bt us x a z, ready L bt us -> In (x, a) us -> L z -> ~ ends bt x Shared z.
Proof. intros L bt us x a z R H Hz E. eapply (proj2 (R x a H)); eauto. now apply ends_shared. Qed.
Lemma ready_exclusive : forall L bt us x a z b, ready L bt us -> In (x, a) us -> a <> Shared -> L z -> ~ ends bt x b z.
Proof. intros L bt us x a z b R H Ha Hz E. eapply (proj2 (R x a H)); eauto. eapply ends_weaken; eauto. Qed.

Lemma ci_access : forall L B bt held n q s us x a w l, cellinv L B bt held n q s -> ready L bt us -> In (x, a) us ->
  holds held q x l -> (w = true -> strong l = true /\ a <> Shared) ->
  exists s' p, access_cell w (l_tag l) s = Some s' /\ cellinv L B bt held n q s' /\ In (l_tag l, p) s' /\
    (strong l = true -> p = Unique) /\ (w = true -> exists s2, s' = (l_tag l, p) :: s2).
Proof.
  intros L B bt held n q s us x a w l I R Hu Hl Hw. destruct (R x a Hu) as [Hx _].
  destruct (ci_item _ _ _ _ _ _ _ I x l Hx Hl) as (p & Hp & Hs).
  destruct (access_spec w (l_tag l) s p) as (s' & E & S & Hi & K & P); auto.
  { exact (ci_nodup _ _ _ _ _ _ _ I). }
  { intros W. apply Hw in W. destruct W as [W _]. apply Hs in W. now subst p. }
  exists s', p. splits; auto. eapply ci_sub; eauto.
  intros z k r Hz Hk Hr. destruct (K _ _ Hr) as [?|[O U]]; auto. exfalso. destruct w.
  - destruct (Hw eq_refl) as [W Ha]. eapply (ready_exclusive L bt us x a z); eauto. eapply (ci_write _ _ _ _ _ _ _ I); eauto.
  - specialize (U eq_refl). subst r. eapply (ready_shared L bt us x a z); eauto. eapply (ci_unique _ _ _ _ _ _ _ I); eauto.
Qed.

(** ** The events of the operands *)

Section Uses.
Context {T : Type} {SC : HScalar T} {St : Type}.

Lemma access_writes_strong : forall a l, access_writes a l = true -> strong l = true /\ a <> Shared.
Proof. intros [] l; unfold access_writes, strong; intros H; try discriminate H; rewrite H; split; auto using orb_true_r; discriminate. Qed.

Lemma accesses_ok : forall L B bt held n q us x a ls, ready L bt us -> In (x, a) us -> incl ls (leaves_of held x) ->
  forall s, cellinv L B bt held n q s ->
  exists s', cell_events q s (map (fun l => Access (access_writes a l) (l_tag l) (l_region l)) ls) = Some s' /\
    cellinv L B bt held n q s'.
Proof.
  intros L B bt held n q us x a ls R Hu. induction ls as [|l ls IH]; intros Hi s I; cbn [map cell_events cell_event].
  - eauto.
  - assert (Hi' : incl ls (leaves_of held x)) by (intros k Hk; apply Hi; now right).
    destruct (covers (l_region l) q) eqn:Ec; [|now apply IH].
    destruct (ci_access L B bt held n q s us x a (access_writes a l) l) as (s' & p & E & I' & _); auto.
    { split; auto. apply Hi. now left. }
    { apply access_writes_strong. }
    rewrite E. now apply IH.
Qed.

Lemma reached_ok : forall L B bt held n q us eager (o : call T St) vs, ready L bt us -> incl vs us ->
  forall s, cellinv L B bt held n q s ->
  exists s', cell_events q s (flat_map (use_events eager o held) vs) = Some s' /\ cellinv L B bt held n q s'.
Proof.
  intros L B bt held n q us eager o vs R. induction vs as [|[x a] vs IH]; intros Hi s I; cbn [flat_map].
  - exists s. auto.
  - rewrite cell_events_app. unfold use_events at 1. cbn [fst snd].
    assert (Hi' : incl vs us) by (intros v Hv; apply Hi; now right).
    destruct (eager || reaches_data o).
    + destruct (accesses_ok L B bt held n q us x a (leaves_of held x) R) with (s := s) as (s' & E & I'); auto.
      { apply Hi. now left. } { apply incl_refl. }
      rewrite E. now apply IH.
    + cbn [cell_events]. now apply IH.
Qed.
End Uses.

(** ** The end of a matrix *)

(** Where an owner reaches, nobody is who is not ended with it. *)
Lemma owner_alone : forall L B bt held n q s us x a l z k, cellinv L B bt held n q s -> ordered bt ->
  ready L bt us -> In (x, a) us -> a <> Shared -> holds held q x l -> l_owned l = true ->
  L z -> z <> x -> holds held q z k -> False.
Proof.
  intros L B bt held n q s us x a l z k I O R Hu Ha Hl Ho Hz Hn Hk. destruct (R x a Hu) as [Hx _].
  assert (Sl : strong l = true) by (unfold strong; rewrite Ho; apply orb_true_r).
  destruct (Nat.eq_dec (l_tag l) (l_tag k)) as [E|E].
  - destruct (ci_same _ _ _ _ _ _ _ I x l z k) as [F _]; auto. eapply (ready_exclusive L bt us x a z); eauto.
  - destruct (ci_item _ _ _ _ _ _ _ I x l Hx Hl) as (p & Hp & _). destruct (ci_item _ _ _ _ _ _ _ I z k Hz Hk) as (r & Hr & _).
    apply (in_map fst) in Hp, Hr. cbn in Hp, Hr.
    destruct (over_total s (l_tag l) (l_tag k) Hp Hr E) as [F|F].
    + eapply (ci_bottom _ _ _ _ _ _ _ I); eauto.
    + eapply (ready_exclusive L bt us x a z); eauto. eapply (ci_write _ _ _ _ _ _ _ I); eauto.
Qed.

Lemma frees_none : forall q s (ls : list leaf), filter (owned_at q) ls = [] ->
  cell_events q s (flat_map (fun l => if l_owned l then [Free (l_tag l) (l_region l)] else []) ls) = Some s.
Proof.
  intros q s ls. induction ls as [|l ls IH]; cbn [filter flat_map]; auto. unfold owned_at at 1. intros H.
  destruct (l_owned l); cbn [andb app cell_events cell_event] in *; [destruct (covers (l_region l) q); [discriminate|]|]; auto.
Qed.

Lemma frees_one : forall q (ls : list leaf) l, filter (owned_at q) ls = [l] ->
  forall s s', write_cell (l_tag l) s = Some s' ->
  cell_events q s (flat_map (fun l => if l_owned l then [Free (l_tag l) (l_region l)] else []) ls) = Some [].
Proof.
  intros q ls l. induction ls as [|k ls IH]; cbn [filter flat_map]; [discriminate|]. unfold owned_at at 1. intros H s s' E.
  destruct (l_owned k); cbn [andb app cell_events cell_event] in *; [|eauto].
  destruct (covers (l_region k) q); [|eauto]. injection H as -> H. rewrite E. cbn [option_map]. now apply frees_none.
Qed.

(** The matrix [x] is dropped. *)
Lemma drop_ok : forall L B bt held n q s us x a, cellinv L B bt held n q s -> ordered bt ->
  ready L bt us -> In (x, a) us -> a <> Shared ->
  exists s', cell_events q s (drop_events held x) = Some s' /\ cellinv (fun z => L z /\ z <> x) B bt held n q s'.
Proof.
  intros L B bt held n q s us x a I O R Hu Ha. destruct (R x a Hu) as [Hx _]. unfold drop_events.
  pose proof (ci_once _ _ _ _ _ _ _ I x Hx) as H1.
  destruct (filter (owned_at q) (leaves_of held x)) as [|l [|]] eqn:F; [| |cbn in H1; lia].
  - exists s. split; [now apply frees_none|]. eapply ci_weaken; eauto. tauto.
  - assert (Hl : holds held q x l /\ l_owned l = true).
    { assert (J : In l (filter (owned_at q) (leaves_of held x))) by (rewrite F; now left).
      apply filter_In in J. destruct J as [J1 J2]. unfold owned_at in J2. apply andb_true_iff in J2. unfold holds. tauto. }
    destruct Hl as [Hl Ho].
    assert (Sl : strong l = true) by (unfold strong; rewrite Ho; apply orb_true_r).
    destruct (ci_access L B bt held n q s us x a true l) as (s' & p & E & _); auto.
    cbn [access_cell] in E. exists []. split; [eapply frees_one; eauto|].
    assert (N : forall z k, L z /\ z <> x -> holds held q z k -> False).
    { intros z k [Hz Hn] Hk. eapply (owner_alone L B bt held n q s us x a l z k); eauto. }
    constructor; try (intros; exfalso; eauto; fail).
    + constructor.
    + exact (ci_held _ _ _ _ _ _ _ I).
    + intros z [Hz _]. exact (ci_once _ _ _ _ _ _ _ I z Hz).
Qed.

(** The moved operands are dropped. *)
Lemma drops_ok : forall (us0 us : list (nat * access)) B bt held n q, ordered bt ->
  forall (L : nat -> Prop) s, cellinv L B bt held n q s -> ready L bt us -> incl us us0 -> no_conflict us = true ->
  exists s', cell_events q s (flat_map (fun u => match snd u with Moved => drop_events held (fst u) | _ => [] end) us) = Some s' /\
    cellinv (fun z => L z /\ ~ In (z, Moved) us) B bt held n q s'.
Proof.
  intros us0 us B bt held n q O. induction us as [|[x a] us IH]; intros L s I R Hi Hn; cbn [flat_map snd fst].
  - exists s. split; auto. eapply ci_weaken; eauto. tauto.
  - cbn [no_conflict] in Hn. apply andb_true_iff in Hn. destruct Hn as [Hf Hn]. rewrite forallb_forall in Hf.
    assert (Hi' : incl us us0) by (intros v Hv; apply Hi; now right).
    rewrite cell_events_app. destruct a.
    1, 2: (destruct (IH L s I) as (s' & E & I'); auto; [intros y b Hy; apply R; now right|];
           exists s'; split; [exact E|]; eapply ci_weaken; eauto; intros z [Hz Hm]; split; auto; intros Hin; apply Hm; now right).
    destruct (drop_ok L B bt held n q s ((x, Moved) :: us) x Moved) as (s1 & E1 & I1); auto; [now left|discriminate|].
    rewrite E1. destruct (IH (fun z => L z /\ z <> x) s1 I1) as (s' & E & I'); auto.
    + intros y b Hy. destruct (R y b) as [Ly Ry]; [now right|]. splits; auto.
      * intros ->. specialize (Hf _ Hy). cbn in Hf. rewrite Nat.eqb_refl in Hf. discriminate Hf.
      * intros z [Hz _]. auto.
    + exists s'. split; auto. eapply ci_weaken; eauto. intros z [Hz Hm]. splits; auto.
      * intros ->. apply Hm. now left.
      * intros Hin. apply Hm. now right.
Qed.
