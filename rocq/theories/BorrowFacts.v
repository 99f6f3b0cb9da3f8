(** * Facts about slots and loans. *)

From Coq Require Import ZifyBool ZifyNat ZifyN.
From Verif Require Import Machine MachineFacts Layouts Memory Matrix MatMul Spec MatrixSpec ExprSpec ProductSpec.
From Verif Require Import Program HistorySpec Borrow.

(** The same loans, maybe fewer live slots. *)
Definition later (bt bt' : list slot) : Prop :=
  length bt' = length bt /\ (forall y, loans_of bt' y = loans_of bt y) /\
  (forall y, is_part bt' y = is_part bt y) /\ (forall y, is_live bt' y = true -> is_live bt y = true).

Lemma later_refl : forall bt, later bt bt.
Proof. unfold later. auto. Qed.

Lemma later_trans : forall b1 b2 b3, later b1 b2 -> later b2 b3 -> later b1 b3.
Proof.
  intros b1 b2 b3 (L1 & N1 & P1 & V1) (L2 & N2 & P2 & V2). unfold later. splits; [congruence | | |auto];
    intros y; [now rewrite N2 | now rewrite P2].
Qed.

(** Live borrowers have live lenders. *)
Definition closed (bt : list slot) : Prop :=
  forall y p e, is_live bt y = true -> In (p, e) (loans_of bt y) -> is_live bt p = true.

(** No live slot has a loan in conflict with the use. *)
Definition calm (bt : list slot) (x : nat) (a : access) : Prop :=
  forall y e, is_live bt y = true -> In (x, e) (loans_of bt y) -> conflict a e = false.

Lemma calm_later : forall bt bt' x a, later bt bt' -> calm bt x a -> calm bt' x a.
Proof. intros bt bt' x a (_ & N & _ & V) H y e Hy He. rewrite N in He. eauto. Qed.

Lemma use_from_spec : forall x a rest past, exists tail,
  use_from past x a rest = past ++ tail /\ length tail = length rest /\
  forall k, nth_error tail k =
    match nth_error rest k with
    | Some s => Some (mkSlot (survives (past ++ firstn k tail) x a s) (loans s) (part s))
    | None => None
    end.
Proof.
  intros x a rest. induction rest as [|s rest IH]; intros past; cbn [use_from].
  - exists []. rewrite app_nil_r. splits; auto. intros k. now destruct k.
  - destruct (IH (past ++ [mkSlot (survives past x a s) (loans s) (part s)])) as (tail & E & L & H).
    exists (mkSlot (survives past x a s) (loans s) (part s) :: tail). splits.
    + rewrite E, <- app_assoc. reflexivity.
    + cbn. now rewrite L.
    + intros [|k].
      * cbn. now rewrite app_nil_r.
      * cbn [nth_error firstn]. rewrite H, <- app_assoc. reflexivity.
Qed.

Lemma is_live_prefix : forall bt n p, is_live (firstn n bt) p = true -> is_live bt p = true.
Proof.
  intros bt n p. unfold is_live. rewrite <- (firstn_skipn n bt) at 2.
  destruct (nth_error (firstn n bt) p) eqn:E; [|discriminate].
  rewrite nth_error_app1; [now rewrite E|]. apply nth_error_Some. congruence.
Qed.

Lemma use_spec : forall bt x a, later bt (use bt (x, a)) /\ closed (use bt (x, a)) /\ calm (use bt (x, a)) x a.
Proof.
  intros bt x a. unfold use. cbn [fst snd].
  destruct (use_from_spec x a bt []) as (bt' & E & L & H). rewrite E. cbn [app] in *. clear E.
  assert (S : forall y, is_live bt' y = true -> exists s, nth_error bt y = Some s /\ live s = true /\
     loans_of bt' y = loans s /\
     forall p e, In (p, e) (loans s) -> is_live bt' p = true /\ (p = x -> conflict a e = false)).
  { intros y Hy. unfold is_live in Hy. rewrite H in Hy. destruct (nth_error bt y) as [s|] eqn:Es; [|discriminate].
    cbn [live] in Hy. unfold survives in Hy. apply andb_true_iff in Hy. destruct Hy as [Hl Hf].
    exists s. splits; auto.
    - unfold loans_of. now rewrite H, Es.
    - intros p e Hp. rewrite forallb_forall in Hf. specialize (Hf _ Hp). cbn [fst snd] in Hf.
      apply andb_true_iff in Hf. destruct Hf as [H1 H2]. split; [eapply is_live_prefix; eauto|].
      intros ->. rewrite Nat.eqb_refl in H2. now destruct (conflict a e). }
  splits.
  - unfold later. splits; auto.
    + intros y. unfold loans_of. rewrite H. now destruct (nth_error bt y).
    + intros y. unfold is_part. rewrite H. now destruct (nth_error bt y).
    + intros y Hy. apply S in Hy. destruct Hy as (s & E & Hl & _). unfold is_live. now rewrite E.
  - intros y p e Hy Hp. apply S in Hy. destruct Hy as (s & E & _ & Hn & Hs). rewrite Hn in Hp. destruct (Hs _ _ Hp); auto.
  - intros y e Hy Hp. apply S in Hy. destruct Hy as (s & E & _ & Hn & Hs). rewrite Hn in Hp. destruct (Hs _ _ Hp); auto.
Qed.

Lemma use_all_spec : forall us bt, closed bt ->
  let bt' := fold_left use us bt in
  later bt bt' /\ closed bt' /\ (forall x a, In (x, a) us -> calm bt' x a).
Proof.
  intros us. induction us as [|[x a] us IH]; intros bt Hc; cbn [fold_left].
  - splits; auto using later_refl. intros x a [].
  - destruct (use_spec bt x a) as (L & C & K). destruct (IH _ C) as (L' & C' & K'). splits; auto.
    + eapply later_trans; eauto.
    + intros y b [E|Hy]; [|eauto]. injection E as -> ->. eapply calm_later; eauto.
Qed.

Lemma end_slot_spec : forall bt x, later bt (end_slot bt x) /\
  forall y, is_live (end_slot bt x) y = if Nat.eqb y x then false else is_live bt y.
Proof.
  intros bt x.
  assert (H : forall y, nth_error (end_slot bt x) y =
     match nth_error bt y with
     | Some s => Some (if Nat.eqb y x then mkSlot false (loans s) (part s) else s)
     | None => None
     end).
  { revert x. induction bt as [|s bt IH]; intros [|x] [|y]; cbn; auto. now destruct (nth_error bt y). }
  assert (A : forall y, is_live (end_slot bt x) y = if Nat.eqb y x then false else is_live bt y).
  { intros y. unfold is_live. rewrite H. destruct (nth_error bt y); destruct (Nat.eqb y x); reflexivity. }
  split; auto. unfold later. splits.
  - clear. revert x. induction bt; intros [|x]; cbn; auto.
  - intros y. unfold loans_of. rewrite H. destruct (nth_error bt y); auto. now destruct (Nat.eqb y x).
  - intros y. unfold is_part. rewrite H. destruct (nth_error bt y); auto. now destruct (Nat.eqb y x).
  - intros y. rewrite A. destruct (Nat.eqb y x); auto. discriminate.
Qed.

Lemma end_moved_spec : forall bt u, later bt (end_moved bt u) /\
  forall y, is_live (end_moved bt u) y = true <-> is_live bt y = true /\ ~ u = (y, Moved).
Proof.
  intros bt [x a]. unfold end_moved. cbn [fst snd].
  destruct a; try (split; [apply later_refl|]; intros y; split; [intros H; split; [exact H|discriminate]|tauto]).
  destruct (end_slot_spec bt x) as [L H]. split; auto. intros y. rewrite H.
  destruct (Nat.eqb_spec y x).
  - subst. split; [discriminate|]. intros [_ K]. now elim K.
  - split; [|tauto]. intros Hy. split; auto. congruence.
Qed.

Lemma end_all_spec : forall us bt, let bt' := fold_left end_moved us bt in
  later bt bt' /\ forall y, is_live bt' y = true <-> is_live bt y = true /\ ~ In (y, Moved) us.
Proof.
  intros us. induction us as [|u us IH]; intros bt; cbn [fold_left].
  - split; [apply later_refl|]. intros y. cbn. tauto.
  - destruct (end_moved_spec bt u) as [L H]. destruct (IH (end_moved bt u)) as [L' H']. split; [eapply later_trans; eauto|].
    intros y. rewrite H', H. cbn [In]. tauto.
Qed.

Lemma no_conflict_moved : forall us x a, no_conflict us = true -> In (x, Moved) us -> In (x, a) us -> a = Moved.
Proof.
  intros us x a. induction us as [|[y b] us IH]; cbn [no_conflict]; [intros _ []|].
  intros H H1 H2. apply andb_true_iff in H. destruct H as [Hf Hn]. rewrite forallb_forall in Hf.
  destruct H1 as [E1|H1], H2 as [E2|H2]; auto.
  - congruence.
  - injection E1 as -> ->. specialize (Hf _ H2). cbn [fst snd] in Hf. rewrite Nat.eqb_refl in Hf. discriminate Hf.
  - injection E2 as -> ->. specialize (Hf _ H1). cbn [fst snd] in Hf. rewrite Nat.eqb_refl in Hf.
    destruct a; discriminate Hf.
Qed.

Lemma admit_spec : forall bt us bt', closed bt -> admit_uses bt us = Some bt' ->
  later bt bt' /\ closed bt' /\
  (forall x a, In (x, a) us -> is_live bt x = true /\ calm bt' x a) /\
  (forall x a, In (x, a) us -> a <> Moved -> is_live bt' x = true) /\
  (forall x, In (x, Moved) us -> is_live bt' x = false).
Proof.
  intros bt us bt' Hc H. unfold admit_uses in H. cbv zeta in H.
  destruct (no_conflict us) eqn:Hn; [|discriminate]. cbn [andb] in H.
  destruct (forallb _ us) eqn:Hf; [|discriminate]. injection H as <-.
  destruct (use_all_spec us bt Hc) as (L & C & K). set (bt1 := fold_left use us bt) in *.
  destruct (end_all_spec us bt1) as (L' & H'). set (bt2 := fold_left end_moved us bt1) in *.
  rewrite forallb_forall in Hf.
  assert (F : forall x a, In (x, a) us -> is_live bt1 x = true) by (intros x a Hx; apply (Hf _ Hx)).
  splits.
  - eapply later_trans; eauto.
  - intros y p e Hy Hp. apply H' in Hy. destruct Hy as [Hy _].
    destruct L' as (_ & N' & _). rewrite N' in Hp. apply H'. split; [eauto|].
    intros Hm. specialize (K _ _ Hm _ _ Hy Hp). destruct e; discriminate K.
  - intros x a Hx. split; [|eapply calm_later; eauto]. destruct L as (_ & _ & _ & V). eauto.
  - intros x a Hx Ha. apply H'. split; [eauto|]. intros Hm. apply Ha. eapply no_conflict_moved; eauto.
  - intros x Hm. destruct (is_live bt2 x) eqn:E; auto. apply H' in E. tauto.
Qed.

(** The order of loans. *)
Lemma below_trans : forall bt x y z, below bt x y -> below bt y z -> below bt x z.
Proof. intros bt x y z H1 H2. induction H2; auto. eapply below_loan; eauto. Qed.

Lemma below_mono : forall bt bt' x y, (forall z l, In l (loans_of bt z) -> In l (loans_of bt' z)) ->
  below bt x y -> below bt' x y.
Proof. intros bt bt' x y H B. induction B; [constructor|]. eapply below_loan; eauto. Qed.

(** [below] by the first loan. *)
Lemma below_first : forall bt y x, below bt y x -> y = x \/ exists p e, In (p, e) (loans_of bt y) /\ below bt p x.
Proof.
  intros bt y x B. induction B as [|x z e B IH Hz]; [auto|]. right. destruct IH as [->|(p & e' & Hp & Hb)].
  - exists x, e. split; auto. constructor.
  - exists p, e'. split; auto. eapply below_loan; eauto.
Qed.

Lemma below_step : forall bt y p e x, In (p, e) (loans_of bt y) -> below bt p x -> below bt y x.
Proof. intros bt y p e x Hp B. eapply below_trans; eauto. eapply below_loan; [constructor|exact Hp]. Qed.

Lemma below_live : forall bt y x, closed bt -> is_live bt y = true -> below bt y x -> is_live bt x = true.
Proof. intros bt y x C Hy B. induction B; eauto. Qed.

(** A live slot strictly below a used one has a last loan that is not in conflict. *)
Lemma below_last : forall bt x a y, closed bt -> calm bt x a -> is_live bt y = true -> below bt y x ->
  y = x \/ exists z e, below bt y z /\ In (x, e) (loans_of bt z) /\ conflict a e = false.
Proof.
  intros bt x a y C K Hy B. destruct B as [|x z e B Hz]; auto. right. exists z, e. splits; auto.
  apply (K z e); [eapply below_live; eauto | exact Hz].
Qed.

Lemma exclusive_ends : forall bt x a y, closed bt -> calm bt x a -> a <> Shared -> is_live bt y = true ->
  below bt y x -> y = x.
Proof.
  intros bt x a y C K Ha Hy B. destruct (below_last _ _ _ _ C K Hy B) as [|(z & e & _ & _ & H)]; auto.
  destruct a, e; try discriminate H. now elim Ha.
Qed.

Lemma later_below : forall bt bt' x y, later bt bt' -> (below bt' x y <-> below bt x y).
Proof.
  intros bt bt' x y (_ & N & _). split; apply below_mono; intros z l; now rewrite N.
Qed.

(** New slots. *)
Lemma loans_app_old : forall bt new y, (y < length bt)%nat -> loans_of (bt ++ new) y = loans_of bt y.
Proof. intros bt new y H. unfold loans_of. now rewrite nth_error_app1. Qed.
Lemma loans_app_new : forall bt new k, loans_of (bt ++ new) (length bt + k) = loans_of new k.
Proof. intros bt new k. unfold loans_of. rewrite nth_error_app2 by lia. now replace (length bt + k - length bt)%nat with k by lia. Qed.
Lemma live_app_old : forall bt new y, (y < length bt)%nat -> is_live (bt ++ new) y = is_live bt y.
Proof. intros bt new y H. unfold is_live. now rewrite nth_error_app1. Qed.
Lemma part_app_old : forall bt new y, (y < length bt)%nat -> is_part (bt ++ new) y = is_part bt y.
Proof. intros bt new y H. unfold is_part. now rewrite nth_error_app1. Qed.
Lemma part_app_new : forall bt new k, is_part (bt ++ new) (length bt + k) = is_part new k.
Proof. intros bt new k. unfold is_part. rewrite nth_error_app2 by lia. now replace (length bt + k - length bt)%nat with k by lia. Qed.
Lemma is_live_bound : forall bt y, is_live bt y = true -> (y < length bt)%nat.
Proof. intros bt y H. unfold is_live in H. apply nth_error_Some. destruct (nth_error bt y); congruence. Qed.

Lemma loans_bound : forall bt y l, In l (loans_of bt y) -> (y < length bt)%nat.
Proof. intros bt y l H. unfold loans_of in H. apply nth_error_Some. destruct (nth_error bt y); [congruence|destruct H]. Qed.

Lemma below_app : forall bt new x y, below bt x y -> below (bt ++ new) x y.
Proof.
  intros bt new x y. apply below_mono. intros z l H. rewrite loans_app_old; auto. eapply loans_bound; eauto.
Qed.
