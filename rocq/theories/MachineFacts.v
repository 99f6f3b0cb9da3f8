(** * Facts about outcomes, usize arithmetic and loops. *)

From Coq Require Import ZifyBool ZifyNat ZifyN.
From Verif Require Import Machine.
Local Open Scope N_scope.

Lemma bind_ok : forall (A B : Type) (x : outcome A) (f : A -> outcome B) b,
  bind x f = Ok b <-> exists a, x = Ok a /\ f a = Ok b.
Proof.
  intros A B [a | |] f b; cbn; split; intros H; try discriminate.
  - exists a; auto.
  - destruct H as (a' & E & H). congruence.
  - destruct H as (a' & E & H). discriminate.
  - destruct H as (a' & E & H). discriminate.
Qed.

Lemma bind_not_ub : forall (A B : Type) (x : outcome A) (f : A -> outcome B),
  x <> UB -> (forall a, x = Ok a -> f a <> UB) -> bind x f <> UB.
Proof. intros A B [a | |] f Hx Hf; cbn; auto. congruence. Qed.

Lemma assert_ok : forall b u, assert_ b = Ok u <-> b = true.
Proof. intros [] []; cbn; split; congruence. Qed.

Lemma assert_not_ub : forall b, assert_ b <> UB.
Proof. intros []; discriminate. Qed.

(** Splits syntactic conjunctions only. *)
Ltac splits := repeat match goal with |- _ /\ _ => split end.

(** Destructs hypotheses about successful sequences. *)
Ltac inv_ok :=
  repeat match goal with
  | H : Ok _ = Ok _ |- _ => injection H as H; try subst
  | H : Panic = Ok _ |- _ => discriminate H
  | H : UB = Ok _ |- _ => discriminate H
  | H : bind _ _ = Ok _ |- _ =>
      apply bind_ok in H; let a := fresh "a" in let E := fresh "E" in destruct H as (a & E & H)
  | H : assert_ _ = Ok _ |- _ => apply assert_ok in H
  end.

Lemma usize_mod_val : usize_mod = 18446744073709551616.
Proof. reflexivity. Qed.
Lemma isize_max_val : isize_max = 9223372036854775807.
Proof. reflexivity. Qed.

Lemma uadd_ok : forall m a b, a + b < usize_mod -> uadd m a b = Ok (a + b).
Proof. intros. unfold uadd. apply N.ltb_lt in H. now rewrite H. Qed.

Lemma usub_ok : forall m a b, b <= a -> usub m a b = Ok (a - b).
Proof. intros. unfold usub. apply N.leb_le in H. now rewrite H. Qed.

Lemma umul_ok : forall m a b, a * b < usize_mod -> umul m a b = Ok (a * b).
Proof. intros. unfold umul. apply N.ltb_lt in H. now rewrite H. Qed.

Lemma udiv_ok : forall a b, b <> 0 -> udiv a b = Ok (a / b).
Proof. intros. unfold udiv. apply N.eqb_neq in H. now rewrite H. Qed.

Lemma urem_ok : forall a b, b <> 0 -> urem a b = Ok (a mod b).
Proof. intros. unfold urem. apply N.eqb_neq in H. now rewrite H. Qed.

(** In a build with overflow checks a result is the mathematical one. *)
Lemma uadd_checked : forall a b c, uadd Checked a b = Ok c -> c = a + b /\ a + b < usize_mod.
Proof.
  intros a b c. unfold uadd. destruct (a + b <? usize_mod) eqn:E; cbn; intros H; inv_ok.
  apply N.ltb_lt in E. auto.
Qed.

Lemma usub_checked : forall a b c, usub Checked a b = Ok c -> c = a - b /\ b <= a.
Proof.
  intros a b c. unfold usub. destruct (b <=? a) eqn:E; cbn; intros H; inv_ok.
  apply N.leb_le in E. auto.
Qed.

Lemma umul_checked : forall a b c, umul Checked a b = Ok c -> c = a * b /\ a * b < usize_mod.
Proof.
  intros a b c. unfold umul. destruct (a * b <? usize_mod) eqn:E; cbn; intros H; inv_ok.
  apply N.ltb_lt in E. auto.
Qed.

Lemma udiv_inv : forall a b c, udiv a b = Ok c -> c = a / b /\ b <> 0.
Proof.
  intros a b c. unfold udiv. destruct (b =? 0) eqn:E; intros H; inv_ok.
  apply N.eqb_neq in E. auto.
Qed.

Lemma urem_inv : forall a b c, urem a b = Ok c -> c = a mod b /\ b <> 0.
Proof.
  intros a b c. unfold urem. destruct (b =? 0) eqn:E; intros H; inv_ok.
  apply N.eqb_neq in E. auto.
Qed.

(** Arithmetic never is undefined behaviour. *)
Lemma overflow_not_ub : forall m w, overflow m w <> UB.
Proof. intros []; discriminate. Qed.
Lemma uadd_not_ub : forall m a b, uadd m a b <> UB.
Proof. intros. unfold uadd. destruct (_ <? _); [discriminate | apply overflow_not_ub]. Qed.
Lemma usub_not_ub : forall m a b, usub m a b <> UB.
Proof. intros. unfold usub. destruct (_ <=? _); [discriminate | apply overflow_not_ub]. Qed.
Lemma umul_not_ub : forall m a b, umul m a b <> UB.
Proof. intros. unfold umul. destruct (_ <? _); [discriminate | apply overflow_not_ub]. Qed.
Lemma udiv_not_ub : forall a b, udiv a b <> UB.
Proof. intros. unfold udiv. destruct (_ =? _); discriminate. Qed.
Lemma urem_not_ub : forall a b, urem a b <> UB.
Proof. intros. unfold urem. destruct (_ =? _); discriminate. Qed.

#[export] Hint Resolve assert_not_ub uadd_not_ub usub_not_ub umul_not_ub udiv_not_ub urem_not_ub
  : no_ub.

(** Without overflow the two profiles agree. *)
Lemma uadd_mode : forall a b c m, uadd Checked a b = Ok c -> uadd m a b = Ok c.
Proof. intros a b c m H. apply uadd_checked in H as [-> H]. now apply uadd_ok. Qed.
Lemma usub_mode : forall a b c m, usub Checked a b = Ok c -> usub m a b = Ok c.
Proof. intros a b c m H. apply usub_checked in H as [-> H]. now apply usub_ok. Qed.
Lemma umul_mode : forall a b c m, umul Checked a b = Ok c -> umul m a b = Ok c.
Proof. intros a b c m H. apply umul_checked in H as [-> H]. now apply umul_ok. Qed.

(** Replace checked arithmetic hypotheses by equations. *)
Ltac inv_arith :=
  inv_ok;
  repeat match goal with
  | H : uadd Checked _ _ = Ok _ |- _ => apply uadd_checked in H; destruct H as [H ?]; try subst
  | H : usub Checked _ _ = Ok _ |- _ => apply usub_checked in H; destruct H as [H ?]; try subst
  | H : umul Checked _ _ = Ok _ |- _ => apply umul_checked in H; destruct H as [H ?]; try subst
  | H : udiv _ _ = Ok _ |- _ => apply udiv_inv in H; destruct H as [H ?]; try subst
  | H : urem _ _ = Ok _ |- _ => apply urem_inv in H; destruct H as [H ?]; try subst
  end.

(** ** Loops *)

(** Invariant rule: [I i s] holds before iteration [i]. *)
Lemma loop_inv : forall (S : Type) (I : N -> S -> Prop) (body : N -> S -> outcome S) n i s,
  (forall k s, i <= k < i + N.of_nat n -> I k s -> exists s', body k s = Ok s' /\ I (k + 1) s') ->
  I i s -> exists s', loop n i body s = Ok s' /\ I (i + N.of_nat n) s'.
Proof.
  intros S I body n. induction n as [|n IH]; intros i s Hstep Hi; cbn [loop].
  - exists s. split; auto. now replace (i + N.of_nat 0) with i by lia.
  - destruct (Hstep i s ltac:(lia) Hi) as (s' & E & Hs'). rewrite E. cbn [bind].
    destruct (IH (i + 1) s') as (s'' & E' & Hs''); auto.
    + intros k t Hk. apply Hstep. lia.
    + exists s''. split; auto. now replace (i + N.of_nat (Datatypes.S n)) with (i + 1 + N.of_nat n) by lia.
Qed.

Lemma for_range_inv : forall (S : Type) (I : N -> S -> Prop) (body : N -> S -> outcome S) n s,
  (forall k s, k < n -> I k s -> exists s', body k s = Ok s' /\ I (k + 1) s') ->
  I 0 s -> exists s', for_range n body s = Ok s' /\ I n s'.
Proof.
  intros S I body n s Hstep H0. unfold for_range.
  destruct (loop_inv S I body (N.to_nat n) 0 s) as (s' & E & H'); auto.
  - intros k t Hk. apply Hstep. lia.
  - exists s'. split; auto. now replace n with (0 + N.of_nat (N.to_nat n)) by lia.
Qed.

(** Safety rule: no iteration is UB as long as the invariant holds. *)
Lemma loop_safe : forall (S : Type) (I : N -> S -> Prop) (body : N -> S -> outcome S) n i s,
  (forall k s, i <= k < i + N.of_nat n -> I k s ->
     body k s <> UB /\ forall s', body k s = Ok s' -> I (k + 1) s') ->
  I i s -> loop n i body s <> UB /\ forall s', loop n i body s = Ok s' -> I (i + N.of_nat n) s'.
Proof.
  intros S I body n. induction n as [|n IH]; intros i s Hstep Hi; cbn [loop].
  - split; [discriminate|]. intros s' H. inv_ok. now replace (i + N.of_nat 0) with i by lia.
  - destruct (Hstep i s ltac:(lia) Hi) as [Hu Hs].
    destruct (body i s) as [s1 | |]; cbn [bind]; try (split; congruence).
    destruct (IH (i + 1) s1) as [Hu' Hs']; auto.
    + intros k t Hk. apply Hstep. lia.
    + split; auto. intros s' E. apply Hs' in E.
      now replace (i + N.of_nat (Datatypes.S n)) with (i + 1 + N.of_nat n) by lia.
Qed.

Lemma for_range_safe : forall (S : Type) (I : N -> S -> Prop) (body : N -> S -> outcome S) n s,
  (forall k s, k < n -> I k s -> body k s <> UB /\ forall s', body k s = Ok s' -> I (k + 1) s') ->
  I 0 s -> for_range n body s <> UB /\ forall s', for_range n body s = Ok s' -> I n s'.
Proof.
  intros S I body n s Hstep H0. unfold for_range.
  destruct (loop_safe S I body (N.to_nat n) 0 s) as [Hu Hs]; auto.
  - intros k t Hk. apply Hstep. lia.
  - split; auto. intros s' E. apply Hs in E. now replace n with (0 + N.of_nat (N.to_nat n)) by lia.
Qed.

(** Two loops whose bodies agree where the first succeeds. *)
Lemma loop_mono : forall (S : Type) (f g : N -> S -> outcome S) n i s s',
  (forall k t t', f k t = Ok t' -> g k t = Ok t') -> loop n i f s = Ok s' -> loop n i g s = Ok s'.
Proof.
  intros S f g n. induction n as [|n IH]; intros i s s' Hfg H; cbn [loop] in *; auto.
  inv_ok. rewrite (Hfg _ _ _ E). cbn [bind]. auto.
Qed.

Lemma for_range_mono : forall (S : Type) (f g : N -> S -> outcome S) n s s',
  (forall k t t', f k t = Ok t' -> g k t = Ok t') ->
  for_range n f s = Ok s' -> for_range n g s = Ok s'.
Proof. intros. unfold for_range in *. eapply loop_mono; eauto. Qed.
