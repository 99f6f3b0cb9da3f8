(** * Property C68: the accuracy of floating point results.

    The gemm routine may sum in any order, in blocks and with fused operations; the scalars
    are f32, f64, c32 and c64. Every finite entry of a computation is as close to the exact
    one as the usual error analysis says, and where no intermediate result comes near the end
    of the range it is finite. *)

From Coq Require Import Floats.SpecFloat Reals List Permutation Lra Lia ZArith.
From Verif Require Import Machine Layouts Memory Matrix MatMul Floats Spec MatrixSpec ExprSpec ProductSpec AlgebraSpec AccuracySpec.
From Verif Require Import FloatProofs AlgebraProofs AccuracyFacts AccuracyProofs Properties_Algebra Properties_Floats.
Import ListNotations.
Local Open Scope R_scope.

(** The arithmetic of the four types: the error of sums and products, where they are finite,
    and when they are finite. *)
Theorem C68_arithmetic :
  rounds (T := real32) /\ rounds (T := real64) /\ rounds (T := complex32) /\ rounds (T := complex64).
Proof. exact types_round. Qed.
Print Assumptions C68_arithmetic.

Theorem C68_range :
  stays_finite (T := real32) /\ stays_finite (T := real64) /\
  stays_finite (T := complex32) /\ stays_finite (T := complex64).
Proof. exact types_finite. Qed.
Print Assumptions C68_range.

(** A fused multiply-add with one rounding is no worse than a product and a sum. *)
Theorem C68_fused :
  (forall x y z v : real32, fused_multiply_add x y z v -> fused x y z v) /\
  (forall x y z v : real64, fused_multiply_add x y z v -> fused x y z v).
Proof. exact types_fused. Qed.
Print Assumptions C68_fused.

(** Whatever the order of operations: with [n] roundings on top of each other the error is at
    most [(1 + u)^n - 1] times the value without signs, apart from underflows. *)
Theorem C68_formulas : forall (T : Type) (SC : HScalar T) (P : Precision T), rounds ->
  forall f v, computed f v -> finite v ->
  distance (value v) (exact f) <= growth (levels f) * unsigned tiny f - unsigned 0 f /\
  forall x, occurs x f -> finite x.
Proof. exact @formula_error. Qed.
Print Assumptions C68_formulas.

Theorem C68_formulas_finite : forall (T : Type) (SC : HScalar T) (P : Precision T), rounds -> stays_finite ->
  forall f v, computed f v -> fits f -> finite v.
Proof. exact @formula_fits. Qed.
Print Assumptions C68_formulas_finite.

(** Gemm routines that compute some formula for each entry, and four of them. *)
Theorem C68_kernels : forall (T : Type) (SC : HScalar T) (P : Precision T), rounds ->
  forall kern levels_of, computes_formulas kern levels_of -> accurate kern levels_of.
Proof. exact @formulas_accurate. Qed.
Print Assumptions C68_kernels.

Theorem C68_in_order : forall (T : Type) (SC : HScalar T) (P : Precision T), rounds ->
  forall kern, computes kern -> computes_formulas kern (fun k => roundings + (roundings + k) + 1)%nat.
Proof. exact @in_order. Qed.
Print Assumptions C68_in_order.

Theorem C68_fused_kernel : forall (T : Type) (SC : HScalar T) (P : Precision T), rounds ->
  forall fma, (forall x y z, fused x y z (fma x y z)) ->
  computes_formulas (fused_kernel fma) (fun k => roundings * (k + 2))%nat.
Proof. exact @fused_formulas. Qed.
Print Assumptions C68_fused_kernel.

Theorem C68_blocked : forall (T : Type) (SC : HScalar T) (P : Precision T), rounds ->
  forall cut, cuts cut -> computes_formulas (blocked_kernel cut) (fun k => roundings + roundings + k + k)%nat.
Proof. exact @blocked_formulas. Qed.
Print Assumptions C68_blocked.

Theorem C68_any_order : forall (T : Type) (SC : HScalar T) (P : Precision T) perm kern levels_of,
  (forall ps, Permutation (perm ps) ps) ->
  computes_formulas kern levels_of -> computes_formulas (permuted perm kern) levels_of.
Proof. exact @permuted_formulas. Qed.
Print Assumptions C68_any_order.

Theorem C68_in_order_safe : forall (T : Type) (SC : HScalar T) (P : Precision T), rounds -> stays_finite ->
  forall kern, computes kern -> safe kern (fun k => roundings + (roundings + k) + 1)%nat.
Proof. exact @in_order_safe. Qed.
Print Assumptions C68_in_order_safe.

(** [matmul] with any scalars alpha and beta. *)
Theorem C68_matmul : forall (T : Type) (P : Precision T)
  kern L (h : @heap T) alpha a b beta c A B C,
  accurate kern L ->
  base_valid h a -> base_valid h b -> base_valid h c ->
  true_strides (bm_layout a) -> true_strides (bm_layout b) -> true_strides (bm_layout c) ->
  no_aliasing (bm_layout c) -> no_overlap a c -> no_overlap b c ->
  compatible (dim (bm_layout a)) (dim (bm_layout b)) (dim (bm_layout c)) ->
  entries_are h a A -> entries_are h b B -> entries_are h c C ->
  exists h', matmul kern h alpha a b beta c = Ok h' /\
    forall i j, in_range (dim (bm_layout c)) (i, j) ->
      let k := snd (dim (bm_layout a)) in
      let ps := row_and_column k A B i j in
      exists v, base_entry h' c (i, j) = Some v /\
      (safe kern L -> finite alpha -> (forall l, (l < k)%N -> finite (A i l) /\ finite (B l j)) ->
       finite beta -> finite (C i j) ->
       growth (L (N.to_nat k)) * pairs_unsigned tiny ps <= largest ->
       growth (L (N.to_nat k)) * entry_unsigned tiny alpha ps beta (C i j) <= largest -> finite v) /\
      (finite v ->
       distance (value v) (entry_exact alpha ps beta (C i j)) <=
         growth (L (N.to_nat k)) * entry_unsigned tiny alpha ps beta (C i j)
           - entry_unsigned 0 alpha ps beta (C i j)).
Proof. exact @matmul_accurate. Qed.
Print Assumptions C68_matmul.

(** Nested computations with [dot], [eval], sums and scalar products. *)
Theorem C68_computations : forall (T : Type) (SC : HScalar T) (P : Precision T), rounds -> stays_finite ->
  forall kern L m (h : @heap T) t,
  accurate kern L -> ignores_strides kern -> term_ok h t ->
  exists h' r, run_term kern m h t = Ok (h', r) /\ dim (bm_layout r) = term_dim t /\
    forall i j, in_range (term_dim t) (i, j) -> exists v, base_entry h' r (i, j) = Some v /\
      (safe kern L -> term_fits L (in_heap h) t i j -> finite v) /\
      (finite v ->
       distance (value v) (term_exact (in_heap h) t i j) <=
         growth (term_levels L t) * term_unsigned tiny (in_heap h) t i j - term_unsigned 0 (in_heap h) t i j).
Proof. exact @run_accurate. Qed.
Print Assumptions C68_computations.

(** Expressions that are read entry by entry. *)
Theorem C68_expressions : forall (T : Type) (SC : HScalar T) (P : Precision T), rounds -> stays_finite ->
  forall m (h : @heap T) d k e, all_leaves (leaf_ok h d k) e ->
  exists x, build e = Ok x /\ mat_dim x = d /\
    forall i j, stored (mat_layout x) (i, j) -> exists v, get m h x i j = Ok v /\
      (expr_fits (base_entry h) e (i, j) -> finite v) /\
      (finite v ->
       distance (value v) (expr_exact (base_entry h) e (i, j)) <=
         growth (expr_levels e) * expr_unsigned tiny (base_entry h) e (i, j) - expr_unsigned 0 (base_entry h) e (i, j)).
Proof. exact @expression_accurate. Qed.
Print Assumptions C68_expressions.

(** The difference of two routines, for example the one used and the one of a test. *)
Theorem C68_agreement : forall (T : Type) (P : Precision T)
  kern kern' L L' sh i j alpha pairs beta old,
  accurate kern L -> accurate kern' L' ->
  let v := kern sh i j alpha pairs beta old in let v' := kern' sh i j alpha pairs beta old in
  finite v -> finite v' ->
  distance (value v) (value v') <=
    (growth (L (length pairs)) + growth (L' (length pairs))) * entry_unsigned tiny alpha pairs beta old
      - 2 * entry_unsigned 0 alpha pairs beta old.
Proof. exact @two_kernels. Qed.
Print Assumptions C68_agreement.

(** Examples: the four routines for f64; 1 + 1 * 1 with the first of them is 2, which is in
    the range. *)
Definition heap_ones : @heap real64 := [[sone]; [sone]; [sone]].
Definition ex_sum : term real64 := Evaluated (plus_ (Use (dot_ x0 x1)) (Use x2)).
Definition in_order_levels (k : nat) : nat := (1 + (1 + k) + 1)%nat.

Lemma rounds64 : rounds (T := real64).
Proof. exact (proj1 (proj2 C68_arithmetic)). Qed.
Lemma finite64 : stays_finite (T := real64).
Proof. exact (proj1 (proj2 C68_range)). Qed.
Lemma ordered_computes : computes (@ordered_kernel real64 _).
Proof. intros sh i j alpha pairs beta old. reflexivity. Qed.
Lemma ordered_formulas : computes_formulas (@ordered_kernel real64 _) in_order_levels.
Proof. exact (C68_in_order real64 _ _ rounds64 _ ordered_computes). Qed.

Lemma ex_sum_fits : term_fits in_order_levels (in_heap heap_ones) ex_sum 0 0.
Proof.
  destruct C68_arithmetic as (_ & (Hu & Ht & _ & _ & F1 & V1 & _) & _).
  assert (M1 : magnitude (sone : real64) = 1).
  { unfold magnitude. rewrite V1. unfold size, n_one. cbn [fst snd]. rewrite Rabs_R0, Rabs_R1. lra. }
  assert (Tt : tiny (T := real64) <= 1).
  { change (powerRZ 2 (-1075) <= powerRZ 2 0). rewrite <- !(Flocq.Core.Raux.bpow_powerRZ Flocq.Core.Zaux.radix2).
    apply Flocq.Core.Raux.bpow_le. lia. }
  assert (Uu : unit_roundoff (T := real64) <= 1).
  { change (powerRZ 2 (-53) <= powerRZ 2 0). rewrite <- !(Flocq.Core.Raux.bpow_powerRZ Flocq.Core.Zaux.radix2).
    apply Flocq.Core.Raux.bpow_le. lia. }
  assert (B : 192 <= largest (T := real64)).
  { change (192 <= powerRZ 2 1024 - powerRZ 2 (1024 - 53)).
    rewrite <- !(Flocq.Core.Raux.bpow_powerRZ Flocq.Core.Zaux.radix2).
    pose proof (Flocq.Core.Raux.bpow_le Flocq.Core.Zaux.radix2 (1024 - 53) 1023 ltac:(lia)) as H1.
    pose proof (Flocq.Core.Raux.bpow_le Flocq.Core.Zaux.radix2 8 1023 ltac:(lia)) as H2.
    change 1024%Z with (1023 + 1)%Z at 1. rewrite Flocq.Core.Raux.bpow_plus.
    change (Flocq.Core.Raux.bpow Flocq.Core.Zaux.radix2 1) with 2.
    change (Flocq.Core.Raux.bpow Flocq.Core.Zaux.radix2 8) with 256 in H2. lra. }
  assert (G : forall n, (n <= 5)%nat -> growth (T := real64) n <= 32).
  { intros n Hn. unfold growth. apply Rle_trans with (2 ^ n).
    - apply pow_incr. lra.
    - replace 32 with (2 ^ 5) by ring. apply Rle_pow; [lra|exact Hn]. }
  assert (E0 : in_heap heap_ones (ex_unit 0) 0 0 = sone) by reflexivity.
  assert (E1 : in_heap heap_ones (ex_unit 1) 0 0 = sone) by reflexivity.
  assert (E2 : in_heap heap_ones (ex_unit 2) 0 0 = sone) by reflexivity.
  assert (D : term_unsigned (tiny (T := real64)) (in_heap heap_ones) (Dot MatrixMatrix x0 x1) 0 0 = 0 + (1 * 1 + 2 * (tiny (T := real64))) + 2 * (tiny (T := real64))).
  { change (0 + (magnitude (in_heap heap_ones (ex_unit 0) 0 0) * magnitude (in_heap heap_ones (ex_unit 1) 0 0) + 2 * (tiny (T := real64)))
      + 2 * (tiny (T := real64)) = 0 + (1 * 1 + 2 * (tiny (T := real64))) + 2 * (tiny (T := real64))).
    rewrite E0, E1, M1. reflexivity. }
  assert (S : lazy_unsigned (tiny (T := real64)) (in_heap heap_ones) (Sum ByReference (Use (Dot MatrixMatrix x0 x1)) ByReference (Use x2)) 0 0
    = 0 + (1 * 1 + 2 * (tiny (T := real64))) + 2 * (tiny (T := real64)) + 1).
  { change (term_unsigned (tiny (T := real64)) (in_heap heap_ones) (Dot MatrixMatrix x0 x1) 0 0
      + magnitude (in_heap heap_ones (ex_unit 2) 0 0) = 0 + (1 * 1 + 2 * (tiny (T := real64))) + 2 * (tiny (T := real64)) + 1).
    rewrite D, E2, M1. reflexivity. }
  assert (M : forall n r, (n <= 5)%nat -> 0 <= r <= 6 -> growth (T := real64) n * r <= largest (T := real64)).
  { intros n r Hn Hr. apply Rle_trans with (2 := B). specialize (G n Hn).
    assert (0 <= growth (T := real64) n) by (unfold growth; apply pow_le; lra).
    apply Rle_trans with (32 * 6); [|lra]. apply Rmult_le_compat; lra. }
  unfold ex_sum, plus_, dot_. cbn [term_fits lazy_fits]. split; [split|split].
  - intros l Hl. change (snd (term_dim x0)) with 1%N in Hl. assert (l = 0%N) as -> by lia.
    unfold x0, x1. cbn [term_fits]. rewrite E0, E1. auto.
  - rewrite D. apply M; [cbn; lia|lra].
  - unfold x2. cbn [term_fits]. now rewrite E2.
  - rewrite S. apply M; [cbn; lia|lra].
Qed.

Example C68_example :
  ignores_strides (@ordered_kernel real64 _) /\ accurate (@ordered_kernel real64 _) in_order_levels /\
  safe (@ordered_kernel real64 _) in_order_levels /\
  term_ok heap_ones ex_sum /\ term_fits in_order_levels (in_heap heap_ones) ex_sum 0 0 /\
  shown heap_ones ex_sum = Some (bits (d64 2 0)) /\
  (forall x y z, fused_multiply_add x y z (fma64 x y z)) /\
  accurate (fused_kernel fma64) (fun k => 1 * (k + 2))%nat /\
  accurate (@blocked_kernel real64 _ (map (fun p => [p]))) (fun k => 1 + 1 + k + k)%nat /\
  accurate (permuted (@rev (real64 * real64)) ordered_kernel) in_order_levels.
Proof.
  split; [intros sh sh' _ _ _ i j alpha pairs beta old; reflexivity|].
  split; [exact (C68_kernels real64 _ _ rounds64 _ _ ordered_formulas)|].
  split; [exact (C68_in_order_safe real64 _ _ rounds64 finite64 _ ordered_computes)|].
  split; [unfold ex_sum, plus_, dot_, x0, x1, x2; cbn [term_ok lazy_ok]; units_ok|].
  split; [exact ex_sum_fits|].
  split; [vm_compute; reflexivity|].
  split; [exact (proj2 fma_exists)|].
  split.
  { refine (C68_kernels real64 _ _ rounds64 _ _ (C68_fused_kernel real64 _ _ rounds64 fma64 _)).
    intros x y z. apply (proj2 C68_fused), (proj2 fma_exists). }
  split.
  { refine (C68_kernels real64 _ _ rounds64 _ _ (C68_blocked real64 _ _ rounds64 _ _)). intros ps. split.
    - induction ps as [|p ps IH]; cbn [map concat app]; congruence.
    - apply Forall_map, Forall_forall. discriminate. }
  refine (C68_kernels real64 _ _ rounds64 _ _ (C68_any_order real64 _ _ _ _ _ _ ordered_formulas)).
  intros ps. apply Permutation_sym, Permutation_rev.
Qed.

(** The bound is not relative to the exact result: the row (2^53, 1, -2^53) times a column of
    ones is 1; summed in order it gives 0 and in reverse order 1. The comparison of the tests
    (up to 100 units in the last place, matrix_multiply.rs:430, 466, 502) can therefore not hold for
    all contents. *)
Definition ex_cancel : list (real64 * real64) :=
  [(d64 1 53, sone); (sone, sone); (d64 (-1) 53, sone)].

Theorem C68_relative_needed : forall sh i j,
  entry_exact sone ex_cancel szero szero = n_one /\
  value (ordered_kernel sh i j sone ex_cancel szero szero) = n_zero /\
  value (permuted (@rev _) ordered_kernel sh i j sone ex_cancel szero szero) = n_one.
Proof.
  intros sh i j.
  destruct C68_arithmetic as (_ & (_ & _ & _ & V0 & _ & V1 & _) & _).
  assert (P : real_of (bits (d64 1 53)) = powerRZ 2 53).
  { replace (bits (d64 1 53)) with (S754_finite false 4503599627370496 1) by (vm_compute; reflexivity).
    unfold real_of. rewrite <- !(Flocq.Core.Raux.bpow_powerRZ Flocq.Core.Zaux.radix2). cbn. lra. }
  assert (N : real_of (bits (d64 (-1) 53)) = - powerRZ 2 53).
  { replace (bits (d64 (-1) 53)) with (S754_finite true 4503599627370496 1) by (vm_compute; reflexivity).
    unfold real_of. rewrite <- !(Flocq.Core.Raux.bpow_powerRZ Flocq.Core.Zaux.radix2). cbn. lra. }
  split; [|split].
  - unfold entry_exact, ex_cancel, pairs_exact. cbn [fold_right fst snd]. rewrite V0, V1.
    change (value (d64 1 53)) with (real_of (bits (d64 1 53)), 0).
    change (value (d64 (-1) 53)) with (real_of (bits (d64 (-1) 53)), 0). rewrite P, N.
    unfold n_add, n_mul, n_one, n_zero. cbn [fst snd]. f_equal; ring.
  - replace (ordered_kernel sh i j sone ex_cancel szero szero) with (szero : real64); [exact V0|].
    symmetry. apply float_eq. vm_compute. reflexivity.
  - replace (permuted (@rev _) ordered_kernel sh i j sone ex_cancel szero szero) with (sone : real64); [exact V1|].
    symmetry. apply float_eq. vm_compute. reflexivity.
Qed.
Print Assumptions C68_relative_needed.
