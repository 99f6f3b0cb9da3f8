(** * AccuracyProofs: errors of formulas, products and computations. *)

From Coq Require Import Permutation Reals Lra Lia List ZArith NArith Psatz.
From Verif Require Import Machine Layouts Memory Matrix MatMul Floats Spec MatrixSpec ExprSpec ProductSpec AlgebraSpec AccuracySpec
  AlgebraProofs ProductProofs ExprProofs FloatProofs.
Import ListNotations.
Local Open Scope R_scope.

(** ** Sizes *)

Lemma size_pos : forall x, 0 <= size x.
Proof. intros x. unfold size. pose proof (Rabs_pos (fst x)). pose proof (Rabs_pos (snd x)). lra. Qed.
Lemma size_add : forall x y, size (n_add x y) <= size x + size y.
Proof.
  intros x y. unfold size, n_add. cbn [fst snd].
  pose proof (Rabs_triang (fst x) (fst y)). pose proof (Rabs_triang (snd x) (snd y)). lra.
Qed.
Lemma size_mul : forall x y, size (n_mul x y) <= size x * size y.
Proof.
  intros x y. unfold size, n_mul. cbn [fst snd]. unfold Rminus.
  pose proof (Rabs_triang (fst x * fst y) (- (snd x * snd y))) as H1.
  pose proof (Rabs_triang (fst x * snd y) (snd x * fst y)) as H2.
  rewrite Rabs_Ropp, !Rabs_mult in H1. rewrite !Rabs_mult in H2. nra.
Qed.
Lemma size_zero : size n_zero = 0.
Proof. unfold size, n_zero. cbn [fst snd]. rewrite Rabs_R0. lra. Qed.
Lemma distance_pos : forall x y, 0 <= distance x y.
Proof. intros x y. apply size_pos. Qed.
Lemma distance_refl : forall x, distance x x = 0.
Proof. intros x. unfold distance, n_sub. rewrite !Rminus_diag_eq by reflexivity. apply size_zero. Qed.
Lemma distance_sym : forall x y, distance x y = distance y x.
Proof.
  intros x y. unfold distance, n_sub, size. cbn [fst snd].
  now rewrite (Rabs_minus_sym (fst x)), (Rabs_minus_sym (snd x)).
Qed.
Lemma distance_trans : forall x y z, distance x z <= distance x y + distance y z.
Proof.
  intros x y z. unfold distance.
  replace (n_sub x z) with (n_add (n_sub x y) (n_sub y z)); [apply size_add|].
  unfold n_add, n_sub. cbn [fst snd]. f_equal; ring.
Qed.
Lemma size_near : forall x y, size x <= size y + distance x y.
Proof.
  intros x y. replace x with (n_add y (n_sub x y)) at 1; [apply size_add|].
  unfold n_add, n_sub. destruct x, y. cbn [fst snd]. f_equal; ring.
Qed.
Lemma distance_add : forall x y x' y', distance (n_add x y) (n_add x' y') <= distance x x' + distance y y'.
Proof.
  intros x y x' y'. unfold distance.
  replace (n_sub (n_add x y) (n_add x' y')) with (n_add (n_sub x x') (n_sub y y')); [apply size_add|].
  unfold n_add, n_sub. cbn [fst snd]. f_equal; ring.
Qed.
Lemma distance_mul : forall x y x' y',
  distance (n_mul x y) (n_mul x' y') <= distance x x' * size y + size x' * distance y y'.
Proof.
  intros x y x' y'. unfold distance.
  replace (n_sub (n_mul x y) (n_mul x' y')) with (n_add (n_mul (n_sub x x') y) (n_mul x' (n_sub y y'))).
  - apply Rle_trans with (1 := size_add _ _). apply Rplus_le_compat; apply size_mul.
  - unfold n_add, n_sub, n_mul. cbn [fst snd]. f_equal; ring.
Qed.

(** ** Bounds: [v] is within [e - a] of [x], where [x] is at most [a] *)

Definition within (v x : number) (e a : R) : Prop := size x <= a /\ distance v x <= e - a.

Lemma within_size : forall v x e a, within v x e a -> size v <= e.
Proof. intros v x e a [H1 H2]. pose proof (size_near v x). lra. Qed.
Lemma within_order : forall v x e a, within v x e a -> 0 <= a <= e.
Proof. intros v x e a [H1 H2]. pose proof (size_pos x). pose proof (distance_pos v x). lra. Qed.
Lemma within_weaken : forall v x e e' a, within v x e a -> e <= e' -> within v x e' a.
Proof. intros v x e e' a [H1 H2] H. split; lra. Qed.
Lemma within_self : forall x, within x x (size x) (size x).
Proof. intros x. split; [lra|]. rewrite distance_refl. lra. Qed.
Lemma within_add : forall v x e a w y f b, within v x e a -> within w y f b ->
  within (n_add v w) (n_add x y) (e + f) (a + b).
Proof.
  intros v x e a w y f b [H1 H2] [H3 H4]. split.
  - pose proof (size_add x y). lra.
  - pose proof (distance_add v w x y). lra.
Qed.
Lemma within_mul : forall v x e a w y f b, within v x e a -> within w y f b ->
  within (n_mul v w) (n_mul x y) (e * f) (a * b).
Proof.
  intros v x e a w y f b Hv Hw. pose proof (within_order _ _ _ _ Hv). pose proof (within_order _ _ _ _ Hw).
  pose proof (within_size _ _ _ _ Hw) as Sw. destruct Hv as [H1 H2], Hw as [H3 H4].
  pose proof (size_pos x). pose proof (size_pos y). pose proof (size_pos w).
  pose proof (distance_pos v x). pose proof (distance_pos w y). split.
  - apply Rle_trans with (1 := size_mul x y). apply Rmult_le_compat; auto.
  - apply Rle_trans with (1 := distance_mul v w x y).
    assert (distance v x * size w <= (e - a) * f) by (apply Rmult_le_compat; auto).
    assert (size x * distance w y <= a * (f - b)) by (apply Rmult_le_compat; auto; lra).
    lra.
Qed.
(** [w] is [v] after a further error, relative to [s >= size v], up to [t]. *)
Lemma within_rounded : forall v x e a w s g t, within v x e a -> 1 <= g -> 0 <= t ->
  distance w v <= g * (s + t) - s -> s <= e -> within w x (g * (e + t)) a.
Proof.
  intros v x e a w s g t [H1 H2] Hg Ht Hd Hs. split; auto.
  pose proof (distance_trans w v x). assert (g * s - s <= g * e - e) by nra. lra.
Qed.

Section Accuracy.
Context {T : Type} {SC : HScalar T} {P : Precision T}.
Hypothesis R : rounds.

Lemma u_ge : 0 <= unit_roundoff.
Proof. apply R. Qed.
Lemma t_ge : 0 <= tiny.
Proof. destruct R as (_ & H & _). exact H. Qed.
Lemma growth_1 : forall n, 1 <= growth n.
Proof. intros n. unfold growth. apply pow_R1_Rle. pose proof u_ge. lra. Qed.
Lemma growth_mono : forall n m, (n <= m)%nat -> growth n <= growth m.
Proof. intros n m H. unfold growth. apply Rle_pow; auto. pose proof u_ge. lra. Qed.
Lemma growth_add : forall n m, growth (n + m) = growth n * growth m.
Proof. intros n m. unfold growth. apply pow_add. Qed.
Lemma growth_S : forall n, growth (S n) = (1 + unit_roundoff) * growth n.
Proof. reflexivity. Qed.
Lemma magnitude_pos : forall x, 0 <= magnitude x.
Proof. intros x. apply size_pos. Qed.

Lemma add_within : forall x y v w e a f b, finite (sadd x y) ->
  (finite x -> within (value x) v e a) -> (finite y -> within (value y) w f b) ->
  within (value (sadd x y)) (n_add v w) ((1 + unit_roundoff) * (e + f)) (a + b).
Proof.
  intros x y v w e a f b H Hx Hy. destruct R as (_ & _ & _ & _ & _ & _ & Ra & _).
  destruct (Ra x y H) as (Fx & Fy & E). specialize (Hx Fx). specialize (Hy Fy). pose proof u_ge.
  pose proof (within_add _ _ _ _ _ _ _ _ Hx Hy) as W.
  replace ((1 + unit_roundoff) * (e + f)) with ((1 + unit_roundoff) * (e + f + 0)) by ring.
  apply (within_rounded _ _ _ _ _ (size (n_add (value x) (value y))) _ 0 W); try lra.
  exact (within_size _ _ _ _ W).
Qed.

Lemma mul_within : forall x y v w e a f b, finite (smul x y) ->
  (finite x -> within (value x) v e a) -> (finite y -> within (value y) w f b) ->
  within (value (smul x y)) (n_mul v w) (growth roundings * (e * f + tiny)) (a * b).
Proof.
  intros x y v w e a f b H Hx Hy. destruct R as (_ & _ & _ & _ & _ & _ & _ & Rm).
  destruct (Rm x y H) as (Fx & Fy & E). specialize (Hx Fx). specialize (Hy Fy).
  pose proof (within_mul _ _ _ _ _ _ _ _ Hx Hy) as W.
  apply (within_rounded _ _ _ _ _ _ _ tiny W (growth_1 _) t_ge E).
  apply Rmult_le_compat; try apply size_pos; eapply within_size; eauto.
Qed.

Lemma fused_within : forall x y z p v w q e a f b g c, fused x y z p -> finite p ->
  (finite x -> within (value x) v e a) -> (finite y -> within (value y) w f b) ->
  (finite z -> within (value z) q g c) ->
  within (value p) (n_add (n_mul v w) q) (growth roundings * (e * f + g + tiny)) (a * b + c).
Proof.
  intros x y z p v w q e a f b g c H Hp Hx Hy Hz.
  destruct (proj1 H Hp) as (Fx & Fy & Fz & E). specialize (Hx Fx). specialize (Hy Fy). specialize (Hz Fz).
  pose proof (within_add _ _ _ _ _ _ _ _ (within_mul _ _ _ _ _ _ _ _ Hx Hy) Hz) as W.
  apply (within_rounded _ _ _ _ _ _ _ tiny W (growth_1 _) t_ge E).
  apply Rplus_le_compat; [|eapply within_size; eauto].
  apply Rmult_le_compat; try apply size_pos; eapply within_size; eauto.
Qed.

(** ** Formulas *)

Lemma unsigned_pos : forall f x, 0 <= x -> 0 <= unsigned x f.
Proof.
  induction f as [y|f IHf g IHg|f IHf g IHg|f IHf g IHg k IHk]; intros x Hx; cbn [unsigned];
    try specialize (IHf x Hx); try specialize (IHg x Hx); try specialize (IHk x Hx).
  - apply magnitude_pos.
  - lra.
  - pose proof (Rmult_le_pos _ _ IHf IHg). lra.
  - pose proof (Rmult_le_pos _ _ IHf IHg). lra.
Qed.

Lemma formula_within : forall f v, computed f v -> finite v ->
  within (value v) (exact f) (growth (levels f) * unsigned tiny f) (unsigned 0 f).
Proof.
  intros f v H. pose proof t_ge as Ht. pose proof u_ge as Hu.
  induction H as [x|f g x y Hf IHf Hg IHg|f g x y Hf IHf Hg IHg|f g k x y z v Hf IHf Hg IHg Hk IHk Hv]; intros Fv;
    cbn [exact unsigned levels].
  - unfold growth. rewrite pow_O, Rmult_1_l. apply within_self.
  - eapply within_weaken; [exact (add_within _ _ _ _ _ _ _ _ Fv IHf IHg)|].
    rewrite growth_S, Rmult_assoc. apply Rmult_le_compat_l; [lra|]. rewrite Rmult_plus_distr_l.
    apply Rplus_le_compat; apply Rmult_le_compat_r; try (apply unsigned_pos; lra); apply growth_mono; lia.
  - rewrite Rplus_0_r. eapply within_weaken; [exact (mul_within _ _ _ _ _ _ _ _ Fv IHf IHg)|].
    rewrite growth_add, (Rmult_assoc (growth roundings)). pose proof (growth_1 roundings) as G0.
    apply Rmult_le_compat_l; [lra|].
    replace (growth (levels f) * unsigned tiny f * (growth (levels g) * unsigned tiny g))
      with (growth (levels f + levels g) * (unsigned tiny f * unsigned tiny g)) by (rewrite growth_add; ring).
    pose proof (growth_1 (levels f + levels g)). nra.
  - rewrite Rplus_0_r. eapply within_weaken; [exact (fused_within _ _ _ _ _ _ _ _ _ _ _ _ _ Hv Fv IHf IHg IHk)|].
    rewrite growth_add, (Rmult_assoc (growth roundings)). pose proof (growth_1 roundings) as G0.
    apply Rmult_le_compat_l; [lra|].
    pose proof (unsigned_pos f _ Ht) as Uf. pose proof (unsigned_pos g _ Ht) as Ug. pose proof (unsigned_pos k _ Ht) as Uk.
    set (M := growth (Nat.max (levels f + levels g) (levels k))).
    assert (M1 : growth (levels f) * growth (levels g) <= M) by (rewrite <- growth_add; apply growth_mono; lia).
    assert (M2 : growth (levels k) <= M) by (apply growth_mono; lia).
    assert (M3 : 1 <= M) by apply growth_1.
    pose proof (Rmult_le_pos _ _ Uf Ug) as Ufg.
    assert (growth (levels f) * unsigned tiny f * (growth (levels g) * unsigned tiny g) <= M * (unsigned tiny f * unsigned tiny g)).
    { replace (growth (levels f) * unsigned tiny f * (growth (levels g) * unsigned tiny g))
        with (growth (levels f) * growth (levels g) * (unsigned tiny f * unsigned tiny g)) by ring.
      now apply Rmult_le_compat_r. }
    assert (growth (levels k) * unsigned tiny k <= M * unsigned tiny k) by now apply Rmult_le_compat_r.
    nra.
Qed.

Lemma formula_finite : forall f v, computed f v -> finite v -> forall x, occurs x f -> finite x.
Proof.
  intros f v H. destruct R as (_ & _ & _ & _ & _ & _ & Ra & Rm).
  induction H as [x|f g x y Hf IHf Hg IHg|f g x y Hf IHf Hg IHg|f g k x y z v Hf IHf Hg IHg Hk IHk Hv];
    intros Fv q Hq; cbn [occurs] in Hq.
  - now subst.
  - destruct (Ra _ _ Fv) as (Fx & Fy & _). destruct Hq; eauto.
  - destruct (Rm _ _ Fv) as (Fx & Fy & _). destruct Hq; eauto.
  - destruct (proj1 Hv Fv) as (Fx & Fy & Fz & _). destruct Hq as [|[|]]; eauto.
Qed.

Lemma formula_error : forall f v, computed f v -> finite v ->
  distance (value v) (exact f) <= growth (levels f) * unsigned tiny f - unsigned 0 f /\
  forall x, occurs x f -> finite x.
Proof. intros f v H Hv. split; [apply (formula_within f v H Hv) | exact (formula_finite f v H Hv)]. Qed.

Lemma within_magnitude : forall v x e a, within (value v) x e a -> magnitude v <= e.
Proof. intros v x e a H. exact (within_size _ _ _ _ H). Qed.

(** ** Products *)

Lemma pairs_unsigned_pos : forall ps x, 0 <= x -> 0 <= pairs_unsigned x ps.
Proof.
  intros ps x Hx. induction ps as [|[a b] ps IH]; cbn [pairs_unsigned fold_right fst snd]; [lra|].
  fold (pairs_unsigned x ps). pose proof (Rmult_le_pos _ _ (magnitude_pos a) (magnitude_pos b)). lra.
Qed.
Lemma entry_unsigned_pos : forall x alpha ps beta old, 0 <= x -> 0 <= entry_unsigned x alpha ps beta old.
Proof.
  intros x alpha ps beta old Hx. unfold entry_unsigned. pose proof (pairs_unsigned_pos ps x Hx).
  pose proof (Rmult_le_pos _ _ (magnitude_pos alpha) H).
  pose proof (Rmult_le_pos _ _ (magnitude_pos beta) (magnitude_pos old)).
  pose proof (Rmult_le_pos _ _ (pos_INR (length ps)) Hx). lra.
Qed.

Lemma formulas_accurate : forall kern l, computes_formulas kern l -> accurate kern l.
Proof.
  intros kern l H sh i j alpha pairs beta old v Fv.
  destruct (H sh i j alpha pairs beta old) as (f & Hc & He & Hu & Ht & Hl & Hp & Ho). fold v in Hc.
  destruct (formula_error f v Hc Fv) as [E Hf]. split; [|split].
  - intros Ha p Hin. destruct (Hp Ha p Hin) as [O1 O2]. auto.
  - intros Hb. auto.
  - rewrite <- He, <- Hu. eapply Rle_trans; [exact E|]. apply Rplus_le_compat_r.
    pose proof (growth_mono _ _ Hl). pose proof (growth_1 (levels f)). pose proof t_ge.
    pose proof (unsigned_pos f tiny t_ge). apply Rmult_le_compat; auto; lra.
Qed.

(** Where nothing comes near the end of the range the result is finite. *)
Hypothesis R' : stays_finite.

Lemma formula_fits : forall f v, computed f v -> fits f -> finite v.
Proof.
  intros f v H. pose proof t_ge as Ht. pose proof u_ge as Hu. destruct R' as [Ra Rm].
  induction H as [x|f g x y Hf IHf Hg IHg|f g x y Hf IHf Hg IHg|f g k x y z v Hf IHf Hg IHg Hk IHk Hv];
    cbn [fits unsigned levels].
  - auto.
  - intros (F1 & F2 & B). specialize (IHf F1). specialize (IHg F2). apply Ra; auto. eapply Rle_trans; [|exact B].
    pose proof (within_magnitude _ _ _ _ (formula_within _ _ Hf IHf)).
    pose proof (within_magnitude _ _ _ _ (formula_within _ _ Hg IHg)).
    rewrite growth_S, Rmult_assoc. apply Rmult_le_compat_l; [lra|]. rewrite Rmult_plus_distr_l.
    apply Rplus_le_compat; (eapply Rle_trans; [eassumption|]);
      apply Rmult_le_compat_r; try (apply unsigned_pos; lra); apply growth_mono; lia.
  - intros (F1 & F2 & B). specialize (IHf F1). specialize (IHg F2). apply Rm; auto. eapply Rle_trans; [|exact B].
    pose proof (within_magnitude _ _ _ _ (formula_within _ _ Hf IHf)) as M1.
    pose proof (within_magnitude _ _ _ _ (formula_within _ _ Hg IHg)) as M2.
    rewrite growth_add, (Rmult_assoc (growth roundings)). pose proof (growth_1 roundings) as G0.
    apply Rmult_le_compat_l; [lra|].
    pose proof (Rmult_le_compat _ _ _ _ (magnitude_pos x) (magnitude_pos y) M1 M2) as M.
    replace (growth (levels f) * unsigned tiny f * (growth (levels g) * unsigned tiny g))
      with (growth (levels f + levels g) * (unsigned tiny f * unsigned tiny g)) in M by (rewrite growth_add; ring).
    pose proof (growth_1 (levels f + levels g)). nra.
  - intros (F1 & F2 & F3 & B). specialize (IHf F1). specialize (IHg F2). specialize (IHk F3).
    apply (proj2 Hv); auto. eapply Rle_trans; [|exact B].
    pose proof (within_magnitude _ _ _ _ (formula_within _ _ Hf IHf)) as M1.
    pose proof (within_magnitude _ _ _ _ (formula_within _ _ Hg IHg)) as M2.
    pose proof (within_magnitude _ _ _ _ (formula_within _ _ Hk IHk)) as M3.
    rewrite growth_add, (Rmult_assoc (growth roundings)). pose proof (growth_1 roundings) as G0.
    apply Rmult_le_compat_l; [lra|].
    pose proof (Rmult_le_compat _ _ _ _ (magnitude_pos x) (magnitude_pos y) M1 M2) as M.
    pose proof (unsigned_pos f _ Ht) as Uf. pose proof (unsigned_pos g _ Ht) as Ug. pose proof (unsigned_pos k _ Ht) as Uk.
    set (N := growth (Nat.max (levels f + levels g) (levels k))).
    assert (N1 : growth (levels f + levels g) <= N) by (apply growth_mono; lia).
    assert (N2 : growth (levels k) <= N) by (apply growth_mono; lia).
    assert (N3 : 1 <= N) by apply growth_1.
    pose proof (Rmult_le_pos _ _ Uf Ug) as Ufg.
    replace (growth (levels f) * unsigned tiny f * (growth (levels g) * unsigned tiny g))
      with (growth (levels f + levels g) * (unsigned tiny f * unsigned tiny g)) in M by (rewrite growth_add; ring).
    assert (growth (levels f + levels g) * (unsigned tiny f * unsigned tiny g) <= N * (unsigned tiny f * unsigned tiny g))
      by now apply Rmult_le_compat_r.
    assert (growth (levels k) * unsigned tiny k <= N * unsigned tiny k) by now apply Rmult_le_compat_r.
    nra.
Qed.

(** The documented formula, computed from left to right. *)
Lemma in_order : forall kern, computes kern -> computes_formulas kern (fun k => roundings + (roundings + k) + 1)%nat.
Proof.
  intros kern H sh i j alpha pairs beta old. rewrite H.
  set (acc := fun (f : @formula T) (p : T * T) => FPlus f (FTimes (Given (fst p)) (Given (snd p)))).
  set (g := fun f : @formula T => FPlus (FTimes (Given alpha) f) (FTimes (Given beta) (Given old))).
  destruct R as (_ & _ & _ & Ez & _).
  assert (F : forall ps f0 v0, computed f0 v0 ->
    let f := fold_left acc ps f0 in
    computed f (fold_left (fun a p => sadd a (smul (fst p) (snd p))) ps v0) /\
    exact f = n_add (exact f0) (pairs_exact ps) /\
    (forall x, unsigned x f = unsigned x f0 + pairs_unsigned x ps) /\
    (levels f <= Nat.max roundings (levels f0) + length ps)%nat /\
    (forall x, occurs x f0 -> occurs x f) /\
    (forall p, In p ps -> occurs (fst p) f /\ occurs (snd p) f)).
  { induction ps as [|[a b] ps IH]; intros f0 v0 H0 f.
    - cbn [fold_left] in f. subst f. split; auto. unfold pairs_exact, pairs_unsigned. cbn [fold_right length In].
      split; [unfold n_add, n_zero; destruct (exact f0); cbn [fst snd]; f_equal; ring|].
      split; [intros x; lra|]. split; [lia|]. split; auto. intros p [].
    - cbn [fold_left fst snd] in f.
      assert (H1 : computed (acc f0 (a, b)) (sadd v0 (smul a b))) by (unfold acc; repeat constructor; auto).
      destruct (IH _ _ H1) as (I1 & I2 & I3 & I4 & I5 & I6). fold f in I1, I2, I3, I4, I5, I6.
      split; [exact I1|]. cbn [acc exact unsigned levels fst snd] in I2, I3, I4.
      split; [rewrite I2; cbn [pairs_exact fold_right fst snd]; fold (pairs_exact ps);
              unfold n_add; cbn [fst snd]; f_equal; ring|].
      split; [intros x; rewrite I3; cbn [pairs_unsigned fold_right fst snd]; fold (pairs_unsigned x ps); ring|].
      split; [cbn [length]; lia|].
      split; [intros x Hx; apply I5; left; exact Hx|].
      intros p [<-|Hp]; [|now apply I6]. cbn [fst snd]. split; apply I5; cbn; auto. }
  destruct (F pairs (Given szero) szero (c_given _)) as (F1 & F2 & F3 & F4 & _ & F6).
  set (f := fold_left acc pairs (Given szero)) in *. exists (g f).
  cbn [exact unsigned levels] in F2, F3, F4. rewrite Ez in F2.
  assert (Z : magnitude szero = 0) by (unfold magnitude; rewrite Ez; apply size_zero).
  split; [unfold g; repeat constructor; auto|].
  split; [unfold g, entry_exact; cbn [exact]; rewrite F2; do 2 f_equal;
          unfold n_add, n_zero; destruct (pairs_exact pairs); cbn [fst snd]; f_equal; ring|].
  split; [unfold g, entry_unsigned; cbn [unsigned]; rewrite F3, Z; ring|].
  split; [unfold g, entry_unsigned; cbn [unsigned]; rewrite F3, Z;
          pose proof (Rmult_le_pos _ _ (pos_INR (length pairs)) t_ge); lra|].
  split; [unfold g; cbn [levels]; lia|].
  split; [intros _ p Hp; destruct (F6 p Hp); unfold g; cbn [occurs]; auto|].
  intros _. unfold g. cbn [occurs]. auto.
Qed.

Lemma pairs_exact_app : forall ps qs, pairs_exact (ps ++ qs) = n_add (pairs_exact ps) (pairs_exact qs).
Proof.
  induction ps as [|p ps IH]; intros qs; cbn [app].
  - change (pairs_exact []) with n_zero. unfold n_add, n_zero. destruct (pairs_exact qs). cbn [fst snd]. f_equal; ring.
  - unfold pairs_exact in *. cbn [fold_right]. rewrite IH. unfold n_add. cbn [fst snd]. f_equal; ring.
Qed.
Lemma pairs_unsigned_app : forall x ps qs, pairs_unsigned x (ps ++ qs) = pairs_unsigned x ps + pairs_unsigned x qs.
Proof.
  intros x. induction ps as [|p ps IH]; intros qs; cbn [app].
  - change (pairs_unsigned x []) with 0. ring.
  - unfold pairs_unsigned in *. cbn [fold_right]. rewrite IH. ring.
Qed.

(** The same with fused operations. *)
Lemma fused_formulas : forall fma, (forall x y z, fused x y z (fma x y z)) ->
  computes_formulas (fused_kernel fma) (fun k => roundings * (k + 2))%nat.
Proof.
  intros fma Hfma sh i j alpha pairs beta old. unfold fused_kernel.
  set (acc := fun (f : @formula T) (p : T * T) => FFused (Given (fst p)) (Given (snd p)) f).
  destruct R as (_ & _ & _ & Ez & _).
  assert (F : forall ps f0 v0, computed f0 v0 ->
    let f := fold_left acc ps f0 in
    computed f (fold_left (fun a p => fma (fst p) (snd p) a) ps v0) /\
    exact f = n_add (exact f0) (pairs_exact ps) /\
    (forall x, unsigned x f = unsigned x f0 + pairs_unsigned x ps) /\
    levels f = (levels f0 + roundings * length ps)%nat /\
    (forall x, occurs x f0 -> occurs x f) /\
    (forall p, In p ps -> occurs (fst p) f /\ occurs (snd p) f)).
  { induction ps as [|[a b] ps IH]; intros f0 v0 H0 f.
    - cbn [fold_left] in f. subst f. split; auto. unfold pairs_exact, pairs_unsigned. cbn [fold_right length In].
      split; [unfold n_add, n_zero; destruct (exact f0); cbn [fst snd]; f_equal; ring|].
      split; [intros x; lra|]. split; [lia|]. split; auto. intros p [].
    - cbn [fold_left fst snd] in f.
      assert (H1 : computed (acc f0 (a, b)) (fma a b v0)) by (unfold acc; econstructor; eauto using c_given).
      destruct (IH _ _ H1) as (I1 & I2 & I3 & I4 & I5 & I6). fold f in I1, I2, I3, I4, I5, I6.
      split; [exact I1|]. cbn [acc exact unsigned levels fst snd] in I2, I3, I4.
      split; [rewrite I2; cbn [pairs_exact fold_right fst snd]; fold (pairs_exact ps);
              unfold n_add; cbn [fst snd]; f_equal; ring|].
      split; [intros x; rewrite I3; cbn [pairs_unsigned fold_right fst snd]; fold (pairs_unsigned x ps); ring|].
      split; [cbn [length]; cbn [Nat.add Nat.max] in I4; lia|].
      split; [intros x Hx; apply I5; right; right; exact Hx|].
      intros p [<-|Hp]; [|now apply I6]. cbn [fst snd]. split; apply I5; cbn; auto. }
  destruct (F pairs (Given szero) szero (c_given _)) as (F1 & F2 & F3 & F4 & _ & F6).
  set (f := fold_left acc pairs (Given szero)) in *.
  exists (FFused (Given alpha) f (FTimes (Given beta) (Given old))).
  cbn [exact unsigned levels] in F2, F3, F4. rewrite Ez in F2.
  assert (Z : magnitude szero = 0) by (unfold magnitude; rewrite Ez; apply size_zero).
  split; [econstructor; eauto using c_given; constructor; constructor|].
  split; [unfold entry_exact; cbn [exact]; rewrite F2; do 2 f_equal;
          unfold n_add, n_zero; destruct (pairs_exact pairs); cbn [fst snd]; f_equal; ring|].
  split; [unfold entry_unsigned; cbn [unsigned]; rewrite F3, Z; ring|].
  split; [unfold entry_unsigned; cbn [unsigned]; rewrite F3, Z;
          pose proof (Rmult_le_pos _ _ (pos_INR (length pairs)) t_ge); lra|].
  split; [cbn [levels]; rewrite F4; lia|].
  split; [intros _ p Hp; destruct (F6 p Hp); cbn [occurs]; auto|].
  intros _. cbn [occurs]. auto.
Qed.

(** The sum in blocks. *)
Lemma blocked_formulas : forall cut, cuts cut ->
  computes_formulas (blocked_kernel cut) (fun k => roundings + roundings + k + k)%nat.
Proof.
  intros cut Hcut sh i j alpha pairs beta old. unfold blocked_kernel.
  destruct (Hcut pairs) as [Hcat Hne]. set (bs := cut pairs) in *. clearbody bs. subst pairs.
  set (acc := fun (f : @formula T) (p : T * T) => FPlus f (FTimes (Given (fst p)) (Given (snd p)))).
  set (step := fun (f : @formula T) (b : list (T * T)) => FPlus f (FTimes (Given alpha) (fold_left acc b (Given szero)))).
  destruct R as (_ & _ & _ & Ez & _). pose proof t_ge as Ht.
  assert (Z : magnitude szero = 0) by (unfold magnitude; rewrite Ez; apply size_zero).
  assert (F : forall ps f0 v0, computed f0 v0 ->
    let f := fold_left acc ps f0 in
    computed f (fold_left (fun a p => sadd a (smul (fst p) (snd p))) ps v0) /\
    exact f = n_add (exact f0) (pairs_exact ps) /\
    (forall x, unsigned x f = unsigned x f0 + pairs_unsigned x ps) /\
    (levels f <= Nat.max roundings (levels f0) + length ps)%nat /\
    (forall x, occurs x f0 -> occurs x f) /\
    (forall p, In p ps -> occurs (fst p) f /\ occurs (snd p) f)).
  { induction ps as [|[a b] ps IH]; intros f0 v0 H0 f.
    - cbn [fold_left] in f. subst f. split; auto. unfold pairs_exact, pairs_unsigned. cbn [fold_right length In].
      split; [unfold n_add, n_zero; destruct (exact f0); cbn [fst snd]; f_equal; ring|].
      split; [intros x; lra|]. split; [lia|]. split; auto. intros p [].
    - cbn [fold_left fst snd] in f.
      assert (H1 : computed (acc f0 (a, b)) (sadd v0 (smul a b))) by (unfold acc; repeat constructor; auto).
      destruct (IH _ _ H1) as (I1 & I2 & I3 & I4 & I5 & I6). fold f in I1, I2, I3, I4, I5, I6.
      split; [exact I1|]. cbn [acc exact unsigned levels fst snd] in I2, I3, I4.
      split; [rewrite I2; cbn [pairs_exact fold_right fst snd]; fold (pairs_exact ps);
              unfold n_add; cbn [fst snd]; f_equal; ring|].
      split; [intros x; rewrite I3; cbn [pairs_unsigned fold_right fst snd]; fold (pairs_unsigned x ps); ring|].
      split; [cbn [length]; lia|].
      split; [intros x Hx; apply I5; left; exact Hx|].
      intros p [<-|Hp]; [|now apply I6]. cbn [fst snd]. split; apply I5; cbn; auto. }
  assert (G : forall bs f0 v0, Forall (fun b => b <> []) bs -> computed f0 v0 ->
    let f := fold_left step bs f0 in
    computed f (fold_left (fun c block =>
      sadd c (smul alpha (fold_left (fun a p => sadd a (smul (fst p) (snd p))) block szero))) bs v0) /\
    exact f = n_add (n_mul (value alpha) (pairs_exact (concat bs))) (exact f0) /\
    unsigned 0 f = magnitude alpha * pairs_unsigned 0 (concat bs) + unsigned 0 f0 /\
    unsigned tiny f <= magnitude alpha * pairs_unsigned tiny (concat bs) + INR (length (concat bs)) * tiny + unsigned tiny f0 /\
    (levels f <= Nat.max (roundings + roundings) (levels f0) + length (concat bs) + length (concat bs))%nat /\
    (forall x, occurs x f0 -> occurs x f) /\
    (forall p, In p (concat bs) -> occurs (fst p) f /\ occurs (snd p) f)).
  { clear bs Hne. induction bs as [|b bs IH]; intros f0 v0 Hne H0 f.
    - cbn [fold_left] in f. subst f. split; auto. unfold pairs_exact, pairs_unsigned. cbn [concat fold_right length In].
      split; [unfold n_add, n_mul, n_zero; destruct (exact f0); cbn [fst snd]; f_equal; ring|].
      split; [ring|]. split; [cbn [INR]; lra|]. split; [lia|]. split; auto. intros p [].
    - cbn [fold_left] in f. inversion Hne as [|b' bs' Hb Hbs]; subst b' bs'.
      destruct (F b (Given szero) szero (c_given _)) as (B1 & B2 & B3 & B4 & _ & B6).
      set (fb := fold_left acc b (Given szero)) in *. cbn [exact unsigned levels] in B2, B3, B4. rewrite Ez in B2.
      assert (H1 : computed (step f0 b)
        (sadd v0 (smul alpha (fold_left (fun a p => sadd a (smul (fst p) (snd p))) b szero))))
        by (unfold step; repeat constructor; auto).
      destruct (IH _ _ Hbs H1) as (I1 & I2 & I3 & I4 & I5 & I6 & I7). fold f in I1, I2, I3, I4, I5, I6, I7.
      split; [exact I1|]. unfold step in I2, I3, I4, I5. cbn [exact unsigned levels] in I2, I3, I4, I5. fold fb in I2, I3, I4, I5.
      rewrite B2 in I2. rewrite B3, Z in I3, I4. cbn [concat].
      rewrite pairs_exact_app, !pairs_unsigned_app, app_length, plus_INR.
      assert (Lb : (1 <= length b)%nat) by (destruct b; [congruence | cbn [length]; lia]).
      assert (Lr : 1 <= INR (length b)) by (apply (le_INR 1); exact Lb).
      split; [rewrite I2; unfold n_add, n_mul, n_zero; cbn [fst snd]; f_equal; ring|].
      split; [rewrite I3; ring|].
      split; [eapply Rle_trans; [exact I4|]; assert (1 * tiny <= INR (length b) * tiny) by (apply Rmult_le_compat_r; auto); lra|].
      split; [lia|].
      split; [intros x Hx; apply I6; left; exact Hx|].
      intros p Hp. apply in_app_or in Hp as [Hp|Hp]; [|now apply I7].
      destruct (B6 p Hp). split; apply I6; cbn [step occurs]; fold fb; auto. }
  destruct (G bs (FTimes (Given beta) (Given old)) (smul beta old) Hne) as (G1 & G2 & G3 & G4 & G5 & G6 & G7).
  { repeat constructor. }
  set (f := fold_left step bs (FTimes (Given beta) (Given old))) in *. exists f.
  cbn [exact unsigned levels] in G2, G3, G4, G5.
  split; [exact G1|].
  split; [unfold entry_exact; rewrite G2; reflexivity|].
  split; [unfold entry_unsigned; rewrite G3; ring|].
  split; [unfold entry_unsigned; lra|].
  split; [lia|].
  split; [intros _; exact G7|].
  intros _. apply G6. cbn [occurs]. auto.
Qed.

(** Another order. *)
Lemma permuted_formulas : forall perm kern l, (forall ps, Permutation (perm ps) ps) ->
  computes_formulas kern l -> computes_formulas (permuted perm kern) l.
Proof.
  intros perm kern l Hp K sh i j alpha pairs beta old. unfold permuted. specialize (Hp pairs).
  assert (E : forall ps qs : list (T * T), Permutation ps qs ->
    pairs_exact ps = pairs_exact qs /\ (forall x, pairs_unsigned x ps = pairs_unsigned x qs)).
  { intros ps qs H. unfold pairs_exact, pairs_unsigned. induction H as [|x ps qs H [I1 I2]|x y ps|ps qs rs H1 [I1 I2] H2 [I3 I4]];
      cbn [fold_right].
    - auto.
    - split; [now rewrite I1|]. intros z. now rewrite I2.
    - split; [unfold n_add; cbn [fst snd]; f_equal; ring|]. intros z. ring.
    - split; [congruence|]. intros z. now rewrite I2. }
  destruct (E _ _ Hp) as [E1 E2]. pose proof (Permutation_length Hp) as E3.
  destruct (K sh i j alpha (perm pairs) beta old) as (f & H1 & H2 & H3 & H4 & H5 & H6 & H7).
  unfold entry_exact, entry_unsigned in *. rewrite E1 in H2. rewrite E2, E3 in H3, H4. rewrite E3 in H5.
  exists f. split; auto. split; auto. split; auto. split; auto. split; auto. split; auto.
  intros Ha p Hin. apply H6; auto. now apply (Permutation_in p (Permutation_sym Hp)).
Qed.

Lemma pairs_unsigned_mono : forall x y ps, x <= y -> pairs_unsigned x ps <= pairs_unsigned y ps.
Proof.
  intros x y ps H. induction ps as [|p ps IH]; unfold pairs_unsigned in *; cbn [fold_right]; lra.
Qed.

Lemma in_order_safe : forall kern, computes kern -> safe kern (fun k => roundings + (roundings + k) + 1)%nat.
Proof.
  intros kern H sh i j alpha pairs beta old Fa Fp Fb Fo B1 B2. rewrite H.
  pose proof t_ge as Ht.
  set (acc := fun (f : @formula T) (p : T * T) => FPlus f (FTimes (Given (fst p)) (Given (snd p)))).
  destruct R as (_ & _ & Fz & Ez & _).
  assert (F : forall ps f0 v0, computed f0 v0 -> fits f0 -> (forall p, In p ps -> finite (fst p) /\ finite (snd p)) ->
    growth (Nat.max roundings (levels f0) + length ps) * (unsigned tiny f0 + pairs_unsigned tiny ps) <= largest ->
    let f := fold_left acc ps f0 in
    computed f (fold_left (fun a p => sadd a (smul (fst p) (snd p))) ps v0) /\ fits f /\
    unsigned tiny f = unsigned tiny f0 + pairs_unsigned tiny ps /\
    (levels f <= Nat.max roundings (levels f0) + length ps)%nat).
  { induction ps as [|[a b] ps IH]; intros f0 v0 H0 F0 Hf B f.
    - cbn [fold_left] in f. subst f. split; auto. split; auto. unfold pairs_unsigned. cbn [fold_right length].
      split; [lra|lia].
    - cbn [fold_left fst snd] in f.
      assert (H1 : computed (acc f0 (a, b)) (sadd v0 (smul a b))) by (unfold acc; repeat constructor; auto).
      destruct (Hf (a, b) (or_introl eq_refl)) as [Ga Gb]. cbn [fst snd] in Ga, Gb.
      pose proof (pairs_unsigned_pos ps tiny Ht) as Up. pose proof (unsigned_pos f0 tiny Ht) as U0.
      pose proof (Rmult_le_pos _ _ (magnitude_pos a) (magnitude_pos b)) as Uab.
      assert (E : pairs_unsigned tiny ((a, b) :: ps) = magnitude a * magnitude b + tiny + pairs_unsigned tiny ps) by reflexivity.
      rewrite E in B.
      assert (M : forall n r, (n <= Nat.max roundings (levels f0) + length ((a, b) :: ps))%nat ->
        0 <= r <= unsigned tiny f0 + (magnitude a * magnitude b + tiny + pairs_unsigned tiny ps) ->
        growth n * r <= largest).
      { intros n r Hn Hr. apply Rle_trans with (2 := B). pose proof (growth_1 n).
        apply Rmult_le_compat; try lra. now apply growth_mono. }
      cbn [length] in M.
      destruct (IH _ _ H1) as (I1 & I2 & I3 & I4).
      + unfold acc. cbn [fits levels unsigned fst snd]. split; auto. split; [split; auto; split; auto|];
          apply M; try lia; lra.
      + intros p Hp. apply Hf. now right.
      + unfold acc. cbn [levels unsigned fst snd]. apply M; [lia|lra].
      + fold f in I1, I2, I3, I4. unfold acc in I3, I4. cbn [levels unsigned fst snd] in I3, I4.
        split; auto. split; auto. split; [rewrite I3, E; ring|]. cbn [length]. lia. }
  assert (Z : magnitude szero = 0) by (unfold magnitude; rewrite Ez; apply size_zero).
  pose proof (pairs_unsigned_pos pairs tiny Ht) as Up.
  destruct (F pairs (Given szero) szero (c_given _) Fz Fp) as (F1 & F2 & F3 & F4).
  { cbn [levels unsigned]. rewrite Z, Rplus_0_l. apply Rle_trans with (2 := B1). apply Rmult_le_compat_r; auto.
    apply growth_mono. lia. }
  set (f := fold_left acc pairs (Given szero)) in *. cbn [levels unsigned] in F3, F4. rewrite Z, Rplus_0_l in F3.
  apply (formula_fits (FPlus (FTimes (Given alpha) f) (FTimes (Given beta) (Given old)))).
  { repeat constructor; auto. }
  pose proof (Rmult_le_pos _ _ (magnitude_pos alpha) Up) as Ua.
  pose proof (Rmult_le_pos _ _ (magnitude_pos beta) (magnitude_pos old)) as Ub.
  assert (M : forall n r, (n <= roundings + (roundings + length pairs) + 1)%nat ->
    0 <= r <= entry_unsigned tiny alpha pairs beta old -> growth n * r <= largest).
  { intros n r Hn Hr. apply Rle_trans with (2 := B2). pose proof (growth_1 n).
    apply Rmult_le_compat; try lra. now apply growth_mono. }
  unfold entry_unsigned in M. cbn [fits levels unsigned]. rewrite F3.
  pose proof (Rmult_le_pos _ _ (pos_INR (length pairs)) Ht) as Uk.
  split; [split; auto; split; auto; apply M; [lia|lra]|].
  split; [split; auto; split; auto; apply M; [lia|lra]|]. apply M; [lia|lra].
Qed.

(** ** Computations *)

Lemma r_sum_pos : forall n f, (forall l, 0 <= f l) -> 0 <= r_sum n f.
Proof. induction n as [|n IH]; intros f H; cbn [r_sum]; [lra|]. specialize (IH f H). specialize (H (N.of_nat n)). lra. Qed.
Lemma r_sum_scale : forall n f c, r_sum n (fun l => c * f l) = c * r_sum n f.
Proof. induction n as [|n IH]; intros f c; cbn [r_sum]; [ring|]. rewrite IH. ring. Qed.

Lemma row_and_column_S : forall n (A B : N -> N -> T) i j,
  row_and_column (N.of_nat (S n)) A B i j =
  row_and_column (N.of_nat n) A B i j ++ [(A i (N.of_nat n), B (N.of_nat n) j)].
Proof.
  intros n A B i j. unfold row_and_column. rewrite !Nat2N.id, seq_S, map_app. reflexivity.
Qed.

(** Row times column, with errors in both. *)
Lemma pairs_within : forall n (A B : N -> N -> T) i j X Y E F a b,
  (forall l, (l < N.of_nat n)%N -> within (value (A i l)) (X l) (E l) (a l)) ->
  (forall l, (l < N.of_nat n)%N -> within (value (B l j)) (Y l) (F l) (b l)) ->
  let ps := row_and_column (N.of_nat n) A B i j in
  within (pairs_exact ps) (n_sum n (fun l => n_mul (X l) (Y l)))
    (r_sum n (fun l => E l * F l)) (r_sum n (fun l => a l * b l)) /\
  forall x, pairs_unsigned x ps <= r_sum n (fun l => E l * F l + x).
Proof.
  induction n as [|n IH]; intros A B i j X Y E F a b HA HB ps.
  - subst ps. cbn. split; [|intros x; unfold pairs_unsigned; cbn; lra].
    split; [rewrite size_zero; lra|]. unfold pairs_exact. cbn. rewrite distance_refl. lra.
  - assert (Hn : (N.of_nat n < N.of_nat (S n))%N) by lia.
    destruct (IH A B i j X Y E F a b) as [W U].
    { intros l Hl. apply HA. lia. }
    { intros l Hl. apply HB. lia. }
    pose proof (HA _ Hn) as WA. pose proof (HB _ Hn) as WB. subst ps. rewrite row_and_column_S.
    split.
    + rewrite pairs_exact_app. cbn [n_sum r_sum]. apply within_add; [exact W|].
      unfold pairs_exact. cbn [fold_right fst snd].
      replace (n_add (n_mul (value (A i (N.of_nat n))) (value (B (N.of_nat n) j))) n_zero)
        with (n_mul (value (A i (N.of_nat n))) (value (B (N.of_nat n) j)))
        by (unfold n_add, n_zero, n_mul; cbn [fst snd]; f_equal; ring).
      now apply within_mul.
    + intros x. rewrite pairs_unsigned_app. cbn [r_sum]. apply Rplus_le_compat; [apply U|].
      unfold pairs_unsigned. cbn [fold_right fst snd]. rewrite Rplus_0_r. apply Rplus_le_compat_r.
      apply Rmult_le_compat; try apply magnitude_pos; eapply within_size; eauto.
Qed.

Lemma r_sum_add : forall n f x, r_sum n (fun l => f l + x) = r_sum n f + INR n * x.
Proof.
  induction n as [|n IH]; intros f x; cbn [r_sum].
  - cbn. ring.
  - rewrite IH, S_INR. ring.
Qed.
Lemma pairs_unsigned_t : forall x ps, pairs_unsigned x ps = pairs_unsigned 0 ps + INR (length ps) * x.
Proof.
  intros x. induction ps as [|p ps IH].
  - unfold pairs_unsigned. cbn. ring.
  - unfold pairs_unsigned in *. cbn [fold_right length]. rewrite IH, S_INR. ring.
Qed.
Lemma row_and_column_length : forall k (A B : N -> N -> T) i j, length (row_and_column k A B i j) = N.to_nat k.
Proof. intros. unfold row_and_column. now rewrite map_length, seq_length. Qed.

Section Kernel.
Variable kern : kernel T.
Variable L : nat -> nat.
Hypothesis K : accurate kern L.

Lemma dot_within : forall sh i j k (A B : N -> N -> T) X Y E F a b,
  let v := kern sh i j sone (row_and_column k A B i j) szero szero in
  finite v ->
  (forall l, finite (A i l) -> within (value (A i l)) (X l) (E l) (a l)) ->
  (forall l, finite (B l j) -> within (value (B l j)) (Y l) (F l) (b l)) ->
  within (value v) (n_sum (N.to_nat k) (fun l => n_mul (X l) (Y l)))
    (growth (L (N.to_nat k)) * (r_sum (N.to_nat k) (fun l => E l * F l + 2 * tiny) + 2 * tiny))
    (r_sum (N.to_nat k) (fun l => a l * b l)).
Proof.
  intros sh i j k A B X Y E F a b v Fv HA HB.
  destruct (K sh i j sone (row_and_column k A B i j) szero szero Fv) as (Hp & _ & D). fold v in D.
  destruct R as (_ & _ & _ & Ez & _ & Eo & _).
  assert (No : value sone <> n_zero) by (rewrite Eo; unfold n_one, n_zero; intros [=]; lra).
  specialize (Hp No).
  assert (Hin : forall l, (l < k)%N -> In (A i l, B l j) (row_and_column k A B i j)).
  { intros l Hl. unfold row_and_column. apply in_map_iff. exists (N.to_nat l). rewrite N2Nat.id.
    split; auto. apply in_seq. lia. }
  rewrite row_and_column_length in D.
  destruct (pairs_within (N.to_nat k) A B i j X Y E F a b) as [W U].
  { intros l Hl. rewrite N2Nat.id in Hl. apply HA. apply (Hp _ (Hin l Hl)). }
  { intros l Hl. rewrite N2Nat.id in Hl. apply HB. apply (Hp _ (Hin l Hl)). }
  rewrite N2Nat.id in W, U. set (ps := row_and_column k A B i j) in *.
  assert (M1 : magnitude sone = 1).
  { unfold magnitude. rewrite Eo. unfold size, n_one. cbn [fst snd]. rewrite Rabs_R0, Rabs_R1. lra. }
  assert (M0 : magnitude szero = 0) by (unfold magnitude; rewrite Ez; apply size_zero).
  assert (Ex : entry_exact sone ps szero szero = pairs_exact ps).
  { unfold entry_exact. rewrite Eo, Ez. unfold n_add, n_mul, n_one, n_zero. destruct (pairs_exact ps).
    cbn [fst snd]. f_equal; ring. }
  rewrite Ex in D. unfold entry_unsigned in D. rewrite M1, M0 in D.
  rewrite (pairs_unsigned_t tiny) in D. assert (Lps : length ps = N.to_nat k) by apply row_and_column_length. rewrite Lps in D.
  pose proof t_ge as Ht. pose proof (growth_1 (L (N.to_nat k))) as G.
  rewrite r_sum_add, Rplus_assoc.
  apply (within_rounded _ _ _ _ _ (pairs_unsigned 0 ps) _ (INR (N.to_nat k) * (2 * tiny) + 2 * tiny) W G).
  - pose proof (pos_INR (N.to_nat k)). pose proof (Rmult_le_pos _ _ H Ht). lra.
  - apply Rle_trans with (1 := D). apply Req_le. ring.
  - specialize (U 0). rewrite r_sum_add in U. lra.
Qed.

Lemma term_lazy_unsigned_pos : forall x F, 0 <= x ->
  (forall t i j, 0 <= term_unsigned x F t i j) /\ (forall z i j, 0 <= lazy_unsigned x F z i j).
Proof.
  intros x F Hx. apply term_lazy_ind; cbn [term_unsigned lazy_unsigned]; intros.
  - apply magnitude_pos.
  - assert (0 <= r_sum (N.to_nat (snd (term_dim t))) (fun l => term_unsigned x F t i l * term_unsigned x F u l j + 2 * x)).
    { apply r_sum_pos. intros l. pose proof (Rmult_le_pos _ _ (H i l) (H0 l j)). lra. }
    lra.
  - auto.
  - auto.
  - specialize (H i j). specialize (H0 i j). lra.
  - pose proof (Rmult_le_pos _ _ (magnitude_pos s) (H i j)). lra.
Qed.

Lemma r_sum_le : forall n f g, (forall l, f l <= g l) -> r_sum n f <= r_sum n g.
Proof. induction n as [|n IH]; intros f g H; cbn [r_sum]; [lra|]. specialize (IH f g H). specialize (H (N.of_nat n)). lra. Qed.
Lemma r_sum_ext : forall n f g, (forall l, f l = g l) -> r_sum n f = r_sum n g.
Proof. induction n as [|n IH]; intros f g H; cbn [r_sum]; [reflexivity|]. now rewrite (IH f g H), H. Qed.

Lemma computation_within : forall F,
  (forall t i j, finite (term_bits kern F t i j) ->
     within (value (term_bits kern F t i j)) (term_exact F t i j)
       (growth (term_levels L t) * term_unsigned tiny F t i j) (term_unsigned 0 F t i j)) /\
  (forall z i j, finite (lazy_bits kern F z i j) ->
     within (value (lazy_bits kern F z i j)) (lazy_exact F z i j)
       (growth (lazy_levels L z) * lazy_unsigned tiny F z i j) (lazy_unsigned 0 F z i j)).
Proof.
  intros F. pose proof u_ge as Hu. pose proof t_ge as Ht.
  destruct (term_lazy_unsigned_pos tiny F Ht) as [Pt Pz].
  apply term_lazy_ind; cbn [term_bits lazy_bits term_exact lazy_exact term_unsigned lazy_unsigned term_levels lazy_levels].
  - intros b i j Fv. unfold growth. rewrite pow_O, Rmult_1_l. apply within_self.
  - intros shape t IHt u IHu i j Fv.
    eapply within_weaken.
    + rewrite Rmult_0_r, Rplus_0_r.
      erewrite r_sum_ext; [|intros l; rewrite Rplus_0_r; reflexivity].
      exact (dot_within _ i j _ _ _ _ _ _ _ _ _ Fv (fun l => IHt i l) (fun l => IHu l j)).
    + set (k := N.to_nat (snd (term_dim t))). rewrite growth_add, (Rmult_assoc (growth (L k))).
      apply Rmult_le_compat_l; [pose proof (growth_1 (L k)); lra|].
      set (lt := term_levels L t). set (lu := term_levels L u).
      pose proof (growth_1 (lt + lu)) as G.
      rewrite Rmult_plus_distr_l. apply Rplus_le_compat; [|nra].
      rewrite <- r_sum_scale. apply r_sum_le. intros l. rewrite growth_add in *.
      replace (growth lt * term_unsigned tiny F t i l * (growth lu * term_unsigned tiny F u l j))
        with (growth lt * growth lu * (term_unsigned tiny F t i l * term_unsigned tiny F u l j)) by ring.
      nra.
  - auto.
  - auto.
  - intros p z IHz q w IHw i j Fv.
    eapply within_weaken; [exact (add_within _ _ _ _ _ _ _ _ Fv (IHz i j) (IHw i j))|].
    rewrite growth_S, (Rmult_assoc (1 + unit_roundoff)). apply Rmult_le_compat_l; [lra|]. rewrite Rmult_plus_distr_l.
    apply Rplus_le_compat; apply Rmult_le_compat_r; auto; apply growth_mono; lia.
  - intros s p z IHz i j Fv. rewrite Rplus_0_r.
    eapply within_weaken; [exact (mul_within _ _ _ _ _ _ _ _ Fv (fun _ => within_self (value s)) (IHz i j))|].
    rewrite growth_add, (Rmult_assoc (growth roundings)). pose proof (growth_1 roundings).
    apply Rmult_le_compat_l; [lra|]. fold (magnitude s). pose proof (growth_1 (lazy_levels L z)). nra.
Qed.

Hypothesis K' : safe kern L.

Lemma pairs_unsigned_le : forall n (A B : N -> N -> T) i j E F x,
  (forall l, (l < N.of_nat n)%N -> magnitude (A i l) <= E l /\ magnitude (B l j) <= F l) ->
  pairs_unsigned x (row_and_column (N.of_nat n) A B i j) <= r_sum n (fun l => E l * F l + x).
Proof.
  induction n as [|n IH]; intros A B i j E F x H.
  - cbn. unfold pairs_unsigned. cbn. lra.
  - rewrite row_and_column_S, pairs_unsigned_app. cbn [r_sum].
    specialize (IH A B i j E F x (fun l Hl => H l ltac:(lia))).
    destruct (H (N.of_nat n) ltac:(lia)) as [H1 H2]. unfold pairs_unsigned at 2. cbn [fold_right fst snd].
    pose proof (Rmult_le_compat _ _ _ _ (magnitude_pos (A i (N.of_nat n))) (magnitude_pos (B (N.of_nat n) j)) H1 H2). lra.
Qed.

Lemma computation_fits : forall F,
  (forall t i j, term_fits L F t i j -> finite (term_bits kern F t i j)) /\
  (forall z i j, lazy_fits L F z i j -> finite (lazy_bits kern F z i j)).
Proof.
  intros F. pose proof u_ge as Hu. pose proof t_ge as Ht.
  destruct (term_lazy_unsigned_pos tiny F Ht) as [Pt Pz].
  destruct (computation_within F) as [Wt Wz]. destruct R' as [Ra Rm].
  destruct R as (_ & _ & Fz & Ez & Fo & Eo & _).
  apply term_lazy_ind; cbn [term_fits lazy_fits term_bits lazy_bits term_unsigned lazy_unsigned term_levels lazy_levels].
  - auto.
  - intros shape t IHt u IHu i j [H B].
    assert (Ft : forall l, (l < snd (term_dim t))%N ->
      finite (term_bits kern F t i l) /\ finite (term_bits kern F u l j)).
    { intros l Hl. destruct (H l Hl). auto. }
    set (k := snd (term_dim t)) in *. set (nk := N.to_nat k) in *.
    set (ps := row_and_column k (term_bits kern F t) (term_bits kern F u) i j).
    set (lt := term_levels L t) in *. set (lu := term_levels L u) in *.
    set (s := r_sum nk (fun l => term_unsigned tiny F t i l * term_unsigned tiny F u l j + 2 * tiny)) in *.
    assert (Hs : 0 <= s).
    { apply r_sum_pos. intros l. pose proof (Rmult_le_pos _ _ (Pt t i l) (Pt u l j)). lra. }
    assert (Up : pairs_unsigned (2 * tiny) ps <= growth (lt + lu) * s).
    { unfold ps. replace k with (N.of_nat nk) by apply N2Nat.id.
      eapply Rle_trans; [apply pairs_unsigned_le with (E := fun l => growth lt * term_unsigned tiny F t i l)
          (F := fun l => growth lu * term_unsigned tiny F u l j)|].
      - intros l Hl. unfold nk in Hl. rewrite N2Nat.id in Hl. destruct (Ft l Hl) as [F1 F2].
        split; eapply within_magnitude; [exact (Wt t i l F1) | exact (Wt u l j F2)].
      - unfold s. rewrite <- r_sum_scale. apply r_sum_le. intros l.
        pose proof (growth_1 (lt + lu)) as G. rewrite growth_add in *.
        replace (growth lt * term_unsigned tiny F t i l * (growth lu * term_unsigned tiny F u l j))
          with (growth lt * growth lu * (term_unsigned tiny F t i l * term_unsigned tiny F u l j)) by ring.
        nra. }
    assert (Len : length ps = nk) by apply row_and_column_length.
    assert (Up' : pairs_unsigned tiny ps + INR (length ps) * tiny <= growth (lt + lu) * s).
    { eapply Rle_trans; [|exact Up]. rewrite (pairs_unsigned_t tiny), (pairs_unsigned_t (2 * tiny)). lra. }
    pose proof (Rmult_le_pos _ _ (pos_INR (length ps)) Ht) as Uk.
    rewrite growth_add, (Rmult_assoc (growth (L nk))) in B.
    pose proof (growth_1 (L nk)) as G1. pose proof (growth_1 (lt + lu)) as G2.
    assert (M : forall r, r <= growth (lt + lu) * (s + 2 * tiny) -> growth (L (length ps)) * r <= largest).
    { intros r Hr. rewrite Len. apply Rle_trans with (2 := B). apply Rmult_le_compat_l; lra. }
    apply K'; auto.
    + intros p Hp. unfold ps, row_and_column in Hp. apply in_map_iff in Hp as (l & <- & Hl). apply in_seq in Hl.
      cbn [fst snd]. apply Ft. lia.
    + fold k ps. apply M. nra.
    + fold k ps. apply M. unfold entry_unsigned.
      assert (M1 : magnitude sone = 1).
      { unfold magnitude. rewrite Eo. unfold size, n_one. cbn [fst snd]. rewrite Rabs_R0, Rabs_R1. lra. }
      assert (M0 : magnitude szero = 0) by (unfold magnitude; rewrite Ez; apply size_zero).
      rewrite M1, M0. nra.
  - auto.
  - auto.
  - intros p z IHz q w IHw i j (H1 & H2 & B). specialize (IHz i j H1). specialize (IHw i j H2). apply Ra; auto.
    apply Rle_trans with (2 := B). pose proof (within_magnitude _ _ _ _ (Wz z i j IHz)).
    pose proof (within_magnitude _ _ _ _ (Wz w i j IHw)).
    rewrite growth_S, (Rmult_assoc (1 + unit_roundoff)). apply Rmult_le_compat_l; [lra|]. rewrite Rmult_plus_distr_l.
    apply Rplus_le_compat; (eapply Rle_trans; [eassumption|]); apply Rmult_le_compat_r; auto; apply growth_mono; lia.
  - intros s p z IHz i j (H1 & H2 & B). specialize (IHz i j H2). apply Rm; auto.
    apply Rle_trans with (2 := B). pose proof (within_magnitude _ _ _ _ (Wz z i j IHz)).
    rewrite growth_add, (Rmult_assoc (growth roundings)). pose proof (growth_1 roundings).
    apply Rmult_le_compat_l; [lra|]. pose proof (growth_1 (lazy_levels L z)).
    pose proof (Rmult_le_compat_l _ _ _ (magnitude_pos s) H). nra.
Qed.
End Kernel.

Lemma run_accurate : forall kern L m (h : @heap T) t,
  accurate kern L -> ignores_strides kern -> term_ok h t ->
  exists h' r, run_term kern m h t = Ok (h', r) /\ dim (bm_layout r) = term_dim t /\
    forall i j, in_range (term_dim t) (i, j) -> exists v, base_entry h' r (i, j) = Some v /\
      (safe kern L -> term_fits L (in_heap h) t i j -> finite v) /\
      (finite v ->
       distance (value v) (term_exact (in_heap h) t i j) <=
         growth (term_levels L t) * term_unsigned tiny (in_heap h) t i j - term_unsigned 0 (in_heap h) t i j).
Proof.
  intros kern L m h t K Hi Ht.
  destruct (c64_bits kern m h t Hi Ht) as (h' & r & E & _ & _ & D & En).
  exists h', r. split; [exact E|]. split; [exact D|]. intros i j Hij. rewrite <- D in Hij.
  eexists. split; [exact (En i j Hij)|]. split.
  - intros K' Hf. exact (proj1 (computation_fits kern L K K' (in_heap h)) t i j Hf).
  - intros Fv. apply (proj1 (computation_within kern L K (in_heap h)) t i j Fv).
Qed.

Lemma matmul_accurate : forall kern L (h : @heap T) alpha a b beta c A B C,
  accurate kern L ->
  base_valid h a -> base_valid h b -> base_valid h c ->
  true_strides (bm_layout a) -> true_strides (bm_layout b) -> true_strides (bm_layout c) ->
  no_aliasing (bm_layout c) -> no_overlap a c -> no_overlap b c ->
  compatible (dim (bm_layout a)) (dim (bm_layout b)) (dim (bm_layout c)) ->
  entries_are h a A -> entries_are h b B -> entries_are h c C ->
  exists h', matmul kern h alpha a b beta c = Ok h' /\
    forall i j, in_range (dim (bm_layout c)) (i, j) ->
      let k := snd (dim (bm_layout a)) in
      let ps := row_and_column k A B i j in
      exists v, base_entry h' c (i, j) = Some v /\
      (safe kern L -> finite alpha -> (forall l, (l < k)%N -> finite (A i l) /\ finite (B l j)) ->
       finite beta -> finite (C i j) ->
       growth (L (N.to_nat k)) * pairs_unsigned tiny ps <= largest ->
       growth (L (N.to_nat k)) * entry_unsigned tiny alpha ps beta (C i j) <= largest -> finite v) /\
      (finite v ->
       distance (value v) (entry_exact alpha ps beta (C i j)) <=
         growth (L (N.to_nat k)) * entry_unsigned tiny alpha ps beta (C i j)
           - entry_unsigned 0 alpha ps beta (C i j)).
Proof.
  intros kern L h alpha a b beta c A B C K Va Vb Vc Ta Tb Tc Na Oa Ob Hd Ea Eb Ec.
  destruct (c32 kern h alpha a b beta c A B C Va Vb Vc Ta Tb Tc Na Oa Ob Hd Ea Eb Ec) as (h' & sh & E & _ & _ & _ & _ & En).
  exists h'. split; [exact E|]. intros i j Hij k ps. eexists. split; [exact (En i j Hij)|]. split.
  { intros Sf Fa Fp Fb Fo B1 B2. apply Sf; auto; fold k; fold ps; unfold ps; try rewrite row_and_column_length; auto.
    intros p Hp. unfold row_and_column in Hp. apply in_map_iff in Hp as (l & <- & Hl). apply in_seq in Hl.
    cbn [fst snd]. apply Fp. lia. }
  intros Fv. destruct (K _ _ _ _ _ _ _ Fv) as (_ & _ & D). rewrite row_and_column_length in D. exact D.
Qed.

(** ** Expressions *)

Lemma expr_within : forall entry e p v, denote entry e p = Some v -> finite v ->
  within (value v) (expr_exact entry e p)
    (growth (expr_levels e) * expr_unsigned tiny entry e p) (expr_unsigned 0 entry e p) /\
  0 <= expr_unsigned tiny entry e p.
Proof.
  intros entry e p. pose proof u_ge as Hu. pose proof t_ge as Ht. destruct R as (_ & _ & _ & _ & _ & _ & Ra & Rm).
  assert (S : forall s e v, denote entry e p = Some v -> finite (smul s v) ->
    (forall v0, denote entry e p = Some v0 -> finite v0 ->
       within (value v0) (expr_exact entry e p)
         (growth (expr_levels e) * expr_unsigned tiny entry e p) (expr_unsigned 0 entry e p) /\
       0 <= expr_unsigned tiny entry e p) ->
    within (value (smul s v)) (n_mul (value s) (expr_exact entry e p))
      (growth (roundings + expr_levels e) * (magnitude s * expr_unsigned tiny entry e p + tiny))
      (magnitude s * expr_unsigned 0 entry e p + 0) /\
    0 <= magnitude s * expr_unsigned tiny entry e p + tiny).
  { intros s e' v E Fv IH. destruct (Rm _ _ Fv) as (Fs & Fw & _). destruct (IH v E Fw) as [W U].
    rewrite Rplus_0_r. split.
    - eapply within_weaken; [exact (mul_within _ _ _ _ _ _ _ _ Fv (fun _ => within_self (value s)) (fun _ => W))|].
      rewrite growth_add, (Rmult_assoc (growth roundings)). pose proof (growth_1 roundings).
      apply Rmult_le_compat_l; [lra|]. fold (magnitude s). pose proof (growth_1 (expr_levels e')). nra.
    - pose proof (Rmult_le_pos _ _ (magnitude_pos s) U). lra. }
  induction e as [b|q e IHe q' f IHf|s q e IHe|q e IHe s]; intros v E Fv; cbn [denote expr_exact expr_unsigned expr_levels] in *.
  - rewrite E. split; [|apply magnitude_pos]. unfold growth. rewrite pow_O, Rmult_1_l. apply within_self.
  - destruct (denote entry e p) as [x|]; [|discriminate]. destruct (denote entry f p) as [y|]; [|discriminate].
    injection E as <-. destruct (Ra _ _ Fv) as (Fx & Fy & _).
    destruct (IHe x eq_refl Fx) as [We Ue]. destruct (IHf y eq_refl Fy) as [Wf Uf]. split; [|lra].
    eapply within_weaken; [exact (add_within _ _ _ _ _ _ _ _ Fv (fun _ => We) (fun _ => Wf))|].
    rewrite growth_S, (Rmult_assoc (1 + unit_roundoff)). apply Rmult_le_compat_l; [lra|]. rewrite Rmult_plus_distr_l.
    apply Rplus_le_compat; apply Rmult_le_compat_r; auto; apply growth_mono; lia.
  - destruct (denote entry e p) as [x|] eqn:Ex; [|discriminate]. injection E as <-. apply S; auto. now rewrite Ex.
  - destruct (denote entry e p) as [x|] eqn:Ex; [|discriminate]. injection E as <-. apply S; auto. now rewrite Ex.
Qed.

Lemma expr_finite : forall entry e p v, expr_fits entry e p -> denote entry e p = Some v -> finite v.
Proof.
  intros entry e p. pose proof u_ge as Hu. pose proof t_ge as Ht. destruct R' as [Ra Rm].
  assert (S : forall s f v, finite s -> denote entry f p = Some v -> finite v ->
    growth (roundings + expr_levels f) * (magnitude s * expr_unsigned tiny entry f p + tiny) <= largest -> finite (smul s v)).
  { intros s f v Fs E Fv B. apply Rm; auto. apply Rle_trans with (2 := B).
    destruct (expr_within entry f p v E Fv) as [W U]. apply within_magnitude in W.
    rewrite growth_add, (Rmult_assoc (growth roundings)). pose proof (growth_1 roundings).
    apply Rmult_le_compat_l; [lra|]. pose proof (growth_1 (expr_levels f)).
    pose proof (Rmult_le_compat_l _ _ _ (magnitude_pos s) W). nra. }
  induction e as [b|q e IHe q' f IHf|s q e IHe|q e IHe s]; intros v;
    cbn [expr_fits denote expr_unsigned expr_levels].
  - auto.
  - intros (H1 & H2 & B) E. destruct (denote entry e p) as [x|] eqn:Ex; [|discriminate].
    destruct (denote entry f p) as [y|] eqn:Ey; [|discriminate]. injection E as <-.
    specialize (IHe x H1 eq_refl). specialize (IHf y H2 eq_refl). apply Ra; auto. apply Rle_trans with (2 := B).
    destruct (expr_within entry e p x Ex IHe) as [W1 U1]. destruct (expr_within entry f p y Ey IHf) as [W2 U2].
    apply within_magnitude in W1, W2.
    rewrite growth_S, (Rmult_assoc (1 + unit_roundoff)). apply Rmult_le_compat_l; [lra|]. rewrite Rmult_plus_distr_l.
    apply Rplus_le_compat; (eapply Rle_trans; [eassumption|]); apply Rmult_le_compat_r; auto; apply growth_mono; lia.
  - intros (H1 & H2 & B) E. destruct (denote entry e p) as [x|] eqn:Ex; [|discriminate]. injection E as <-.
    apply (S s e); auto.
  - intros (H1 & H2 & B) E. destruct (denote entry e p) as [x|] eqn:Ex; [|discriminate]. injection E as <-.
    apply (S s e); auto.
Qed.

Lemma expression_accurate : forall m (h : @heap T) d k e, all_leaves (leaf_ok h d k) e ->
  exists x, build e = Ok x /\ mat_dim x = d /\
    forall i j, stored (mat_layout x) (i, j) -> exists v, get m h x i j = Ok v /\
      (expr_fits (base_entry h) e (i, j) -> finite v) /\
      (finite v ->
       distance (value v) (expr_exact (base_entry h) e (i, j)) <=
         growth (expr_levels e) * expr_unsigned tiny (base_entry h) e (i, j) - expr_unsigned 0 (base_entry h) e (i, j)).
Proof.
  intros m h d k e H. destruct (c25 m h d k e H) as (x & E & _ & D & _ & G).
  exists x. split; [exact E|]. split; [exact D|]. intros i j Hs. destruct (G i j) as [G1 _].
  destruct (G1 Hs) as (v & G2 & G3). exists v. split; [exact G2|]. split.
  - intros Hf. exact (expr_finite _ _ _ _ Hf G3).
  - intros Fv. apply (expr_within (base_entry h) e (i, j) v G3 Fv).
Qed.

(** Two routines: their results differ by at most twice the bound. *)
Lemma two_kernels : forall kern kern' L L' sh i j alpha pairs beta old,
  accurate kern L -> accurate kern' L' ->
  let v := kern sh i j alpha pairs beta old in let v' := kern' sh i j alpha pairs beta old in
  finite v -> finite v' ->
  distance (value v) (value v') <=
    (growth (L (length pairs)) + growth (L' (length pairs))) * entry_unsigned tiny alpha pairs beta old
      - 2 * entry_unsigned 0 alpha pairs beta old.
Proof.
  intros kern kern' L L' sh i j alpha pairs beta old K K' v v' Fv Fv'.
  destruct (K _ _ _ _ _ _ _ Fv) as (_ & _ & D). destruct (K' _ _ _ _ _ _ _ Fv') as (_ & _ & D').
  fold v in D. fold v' in D'. rewrite distance_sym in D'.
  pose proof (distance_trans (value v) (entry_exact alpha pairs beta old) (value v')). lra.
Qed.
End Accuracy.
