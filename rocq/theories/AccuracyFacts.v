(** * AccuracyFacts: the errors of the arithmetic of f32, f64, c32 and c64. *)

From Coq Require Import ZArith NArith Reals Lia Lra Psatz Bool List Floats.SpecFloat.
From Flocq Require Import Core.Core IEEE754.BinarySingleNaN Plus_error Relative.
From Verif Require Import Machine Memory Matrix MatMul FloatFacts Floats Spec MatrixSpec ExprSpec ProductSpec AlgebraSpec AccuracySpec.
Local Open Scope R_scope.

Section Format.
Variables prec emax : Z.
Hypothesis prec_pos : (1 < prec)%Z.
Hypothesis prec_emax : (prec < emax)%Z.

#[local] Instance prec_gt : Prec_gt_0 prec.
Proof. unfold Prec_gt_0. lia. Qed.
#[local] Instance prec_lt : Prec_lt_emax prec emax := prec_emax.

Notation emin := (3 - emax - prec)%Z.
Notation bfloat := (binary_float prec emax).
Notation float := (float prec emax).
Notation rnd x := (round radix2 (FLT_exp emin prec) ZnearestE x).
Notation format := (generic_format radix2 (FLT_exp emin prec)).

Lemma round_aux_same : forall s m e l,
  SpecFloat.binary_round_aux prec emax s m e l = binary_round_aux prec emax mode_NE s m e l.
Proof.
  intros s m e l. unfold SpecFloat.binary_round_aux, binary_round_aux.
  destruct (SpecFloat.shr_fexp prec emax m e l) as [mrs e'].
  replace (SpecFloat.round_nearest_even (SpecFloat.shr_m mrs) (SpecFloat.loc_of_shr_record mrs))
    with (choice_mode mode_NE s (SpecFloat.shr_m mrs) (SpecFloat.loc_of_shr_record mrs)); [reflexivity|].
  destruct (SpecFloat.loc_of_shr_record mrs) as [|[]]; try reflexivity.
  cbn. unfold Round.cond_incr. now destruct (Z.even _).
Qed.

Lemma round_same : forall s m e,
  SpecFloat.binary_round prec emax s m e = binary_round prec emax mode_NE s m e.
Proof.
  intros s m e. unfold SpecFloat.binary_round, binary_round, shl_align_fexp.
  destruct (SpecFloat.shl_align _ _ _) as [m' e']. apply round_aux_same.
Qed.

Lemma normalize_same : forall m e,
  SpecFloat.binary_normalize prec emax m e false = B2SF (binary_normalize prec emax prec_gt prec_lt mode_NE m e false).
Proof.
  intros m e. destruct m as [|m|m]; cbn [SpecFloat.binary_normalize binary_normalize].
  - reflexivity.
  - rewrite B2SF_SF2B. apply round_same.
  - rewrite B2SF_SF2B. apply round_same.
Qed.

Lemma add_same : forall x y : bfloat, SFadd prec emax (B2SF x) (B2SF y) = B2SF (Bplus mode_NE x y).
Proof.
  intros [sx|sx| |sx mx ex Bx] [sy|sy| |sy my ey By];
    try (cbn; now (trivial || destruct (Bool.eqb _ _))).
  cbn [B2SF SFadd Bplus]. apply normalize_same.
Qed.

Lemma sub_same : forall x y : bfloat, SFsub prec emax (B2SF x) (B2SF y) = B2SF (Bminus mode_NE x y).
Proof.
  intros [sx|sx| |sx mx ex Bx] [sy|sy| |sy my ey By];
    try (cbn; now (trivial || destruct (Bool.eqb _ _))).
  cbn [B2SF SFsub Bminus]. unfold Fplus_naive.
  replace (cond_Zopp (negb sy) (Z.pos (fst (shl_align my ey (Z.min ex ey)))))
    with (- cond_Zopp sy (Z.pos (fst (shl_align my ey (Z.min ex ey)))))%Z by (destruct sy; reflexivity).
  rewrite Z.add_opp_r. apply normalize_same.
Qed.

Lemma mul_same : forall x y : bfloat, SFmul prec emax (B2SF x) (B2SF y) = B2SF (Bmult mode_NE x y).
Proof.
  intros [sx|sx| |sx mx ex Bx] [sy|sy| |sy my ey By]; try reflexivity.
  cbn [B2SF SFmul Bmult]. rewrite B2SF_SF2B. apply round_aux_same.
Qed.

(** ** Values *)

Definition to_b (x : float) : bfloat := SF2B (bits x) (canonical x).
Lemma to_b_bits : forall x, B2SF (to_b x) = bits x.
Proof. intros x. apply B2SF_SF2B. Qed.

Lemma real_of_B2R : forall x : bfloat, real_of (B2SF x) = B2R x.
Proof.
  intros [s|s| |s m e H]; try reflexivity. cbn [B2SF real_of B2R]. unfold F2R. cbn [Fnum Fexp].
  rewrite bpow_powerRZ. f_equal. destruct s; cbn [cond_Zopp]; [now rewrite opp_IZR | reflexivity].
Qed.

Lemma is_number_finite : forall x : bfloat, is_number (B2SF x) <-> is_finite x = true.
Proof. intros [s|s| |s m e H]; cbn; intuition congruence. Qed.

Lemma format_of : forall x : float, format (real_of (bits x)).
Proof. intros x. rewrite <- to_b_bits, real_of_B2R. apply generic_format_B2R. Qed.

(** A finite result comes from finite operands and is the rounded exact result. *)
Lemma plus_rounds : forall x y : bfloat, is_finite (Bplus mode_NE x y) = true ->
  is_finite x = true /\ is_finite y = true /\ B2R (Bplus mode_NE x y) = rnd (B2R x + B2R y).
Proof.
  intros x y H.
  assert (F : is_finite x = true /\ is_finite y = true).
  { destruct x as [sx|sx| |sx mx ex Bx], y as [sy|sy| |sy my ey By]; cbn in H |- *; auto; try discriminate;
      destruct (Bool.eqb sx sy); discriminate. }
  destruct F as [Fx Fy]. split; auto. split; auto.
  pose proof (Bplus_correct prec emax _ _ mode_NE x y Fx Fy) as C.
  destruct (Rlt_bool _ _); [apply C|]. destruct C as [C _]. exfalso.
  apply is_number_finite in H. rewrite C in H. exact H.
Qed.

Lemma minus_rounds : forall x y : bfloat, is_finite (Bminus mode_NE x y) = true ->
  is_finite x = true /\ is_finite y = true /\ B2R (Bminus mode_NE x y) = rnd (B2R x - B2R y).
Proof.
  intros x y H.
  assert (F : is_finite x = true /\ is_finite y = true).
  { destruct x as [sx|sx| |sx mx ex Bx], y as [sy|sy| |sy my ey By]; cbn in H |- *; auto; try discriminate;
      destruct (Bool.eqb sx (negb sy)); discriminate. }
  destruct F as [Fx Fy]. split; auto. split; auto.
  pose proof (Bminus_correct prec emax _ _ mode_NE x y Fx Fy) as C.
  destruct (Rlt_bool _ _); [apply C|]. destruct C as [C _]. exfalso.
  apply is_number_finite in H. rewrite C in H. exact H.
Qed.

Lemma mult_rounds : forall x y : bfloat, is_finite (Bmult mode_NE x y) = true ->
  is_finite x = true /\ is_finite y = true /\ B2R (Bmult mode_NE x y) = rnd (B2R x * B2R y).
Proof.
  intros x y H.
  assert (F : is_finite x = true /\ is_finite y = true).
  { destruct x as [sx|sx| |sx mx ex Bx], y as [sy|sy| |sy my ey By]; cbn in H |- *; auto; discriminate. }
  destruct F as [Fx Fy]. split; auto. split; auto.
  pose proof (Bmult_correct prec emax _ _ mode_NE x y) as C.
  destruct (Rlt_bool _ _); [apply C|]. exfalso.
  apply is_number_finite in H. rewrite C in H. exact H.
Qed.

(** ** Errors *)

Definition u : R := powerRZ 2 (- prec).
Definition eta : R := powerRZ 2 (emin - 1).

Lemma u_is : u = / 2 * bpow radix2 (- prec + 1).
Proof. unfold u. rewrite <- (bpow_powerRZ radix2), bpow_plus. cbn [bpow]. change (IZR (Z.pow_pos radix2 1)) with 2. lra. Qed.
Lemma eta_is : eta = / 2 * bpow radix2 emin.
Proof.
  unfold eta. rewrite <- (bpow_powerRZ radix2). change (emin - 1)%Z with (emin + -1)%Z.
  rewrite bpow_plus. change (bpow radix2 (-1)) with (/ 2). lra.
Qed.
Lemma u_pos : 0 <= u.
Proof. unfold u. apply powerRZ_le. lra. Qed.
Lemma eta_pos : 0 <= eta.
Proof. unfold eta. apply powerRZ_le. lra. Qed.

Lemma sum_error : forall x y, format x -> format y -> Rabs (rnd (x + y) - (x + y)) <= u * Rabs (x + y).
Proof.
  intros x y Fx Fy.
  destruct (FLT_plus_error_N_ex radix2 emin prec (fun n => negb (Z.even n)) x y Fx Fy) as (eps & He & ->).
  replace ((x + y) * (1 + eps) - (x + y)) with (eps * (x + y)) by ring.
  rewrite Rabs_mult. apply Rmult_le_compat_r; [apply Rabs_pos|].
  apply Rle_trans with (1 := He). rewrite u_is. apply u_rod1pu_ro_le_u_ro.
Qed.

Lemma round_error : forall x, Rabs (rnd x - x) <= (1 + u) * (Rabs x + eta) - Rabs x.
Proof.
  intros x. pose proof u_pos. pose proof eta_pos. pose proof (Rabs_pos x) as Hx.
  destruct (error_N_FLT radix2 emin prec (ltac:(lia)) (fun n => negb (Z.even n)) x) as (eps & e & He & Hn & _ & ->).
  fold (u_ro radix2 prec) in He. rewrite <- u_is in He || (unfold u_ro in He; rewrite <- u_is in He).
  rewrite <- eta_is in Hn.
  replace (x * (1 + eps) + e - x) with (x * eps + e) by ring.
  apply Rle_trans with (Rabs x * u + eta).
  - apply Rle_trans with (1 := Rabs_triang _ _). rewrite Rabs_mult.
    apply Rplus_le_compat; auto. now apply Rmult_le_compat_l.
  - nra.
Qed.

Lemma plus_finite : forall x y : bfloat, is_finite x = true -> is_finite y = true ->
  Rabs (rnd (B2R x + B2R y)) < bpow radix2 emax -> is_finite (Bplus mode_NE x y) = true.
Proof.
  intros x y Fx Fy H. pose proof (Bplus_correct prec emax _ _ mode_NE x y Fx Fy) as C. cbn [round_mode] in C.
  change (SpecFloat.fexp prec emax) with (FLT_exp emin prec) in C. rewrite Rlt_bool_true in C by exact H. apply C.
Qed.
Lemma minus_finite : forall x y : bfloat, is_finite x = true -> is_finite y = true ->
  Rabs (rnd (B2R x - B2R y)) < bpow radix2 emax -> is_finite (Bminus mode_NE x y) = true.
Proof.
  intros x y Fx Fy H. pose proof (Bminus_correct prec emax _ _ mode_NE x y Fx Fy) as C. cbn [round_mode] in C.
  change (SpecFloat.fexp prec emax) with (FLT_exp emin prec) in C. rewrite Rlt_bool_true in C by exact H. apply C.
Qed.
Lemma mult_finite : forall x y : bfloat, is_finite x = true -> is_finite y = true ->
  Rabs (rnd (B2R x * B2R y)) < bpow radix2 emax -> is_finite (Bmult mode_NE x y) = true.
Proof.
  intros x y Fx Fy H. pose proof (Bmult_correct prec emax _ _ mode_NE x y) as C. cbn [round_mode] in C.
  change (SpecFloat.fexp prec emax) with (FLT_exp emin prec) in C. rewrite Rlt_bool_true in C by exact H.
  destruct C as (_ & C & _). now rewrite C, Fx, Fy.
Qed.

Definition top : R := powerRZ 2 emax - powerRZ 2 (emax - prec).
Lemma top_lt : top < bpow radix2 emax.
Proof. unfold top. rewrite (bpow_powerRZ radix2). pose proof (powerRZ_lt 2 (emax - prec) ltac:(lra)). change (IZR radix2) with 2. lra. Qed.

Lemma fadd_finite : forall x y : float, is_number (bits x) -> is_number (bits y) ->
  (1 + u) * Rabs (real_of (bits x) + real_of (bits y)) <= top -> is_number (bits (fadd prec emax prec_pos x y)).
Proof.
  intros x y. cbn [fadd bits]. pose proof (format_of x) as Fx. pose proof (format_of y) as Fy. revert Fx Fy.
  rewrite <- (to_b_bits x), <- (to_b_bits y), add_same, !is_number_finite, !real_of_B2R.
  intros Fx Fy Hx Hy H. apply plus_finite; auto. pose proof (sum_error _ _ Fx Fy) as E. pose proof top_lt.
  set (s := B2R (to_b x) + B2R (to_b y)) in *. pose proof (Rabs_triang (rnd s - s) s).
  replace (rnd s - s + s) with (rnd s) in H1 by ring. lra.
Qed.
Lemma fsub_finite : forall x y : float, is_number (bits x) -> is_number (bits y) ->
  (1 + u) * Rabs (real_of (bits x) - real_of (bits y)) <= top -> is_number (bits (fsub prec emax prec_pos x y)).
Proof.
  intros x y. cbn [fsub bits]. pose proof (format_of x) as Fx. pose proof (format_of y) as Fy. revert Fx Fy.
  rewrite <- (to_b_bits x), <- (to_b_bits y), sub_same, !is_number_finite, !real_of_B2R.
  intros Fx Fy Hx Hy H. apply minus_finite; auto. pose proof top_lt.
  assert (E : Rabs (rnd (B2R (to_b x) - B2R (to_b y)) - (B2R (to_b x) - B2R (to_b y))) <= u * Rabs (B2R (to_b x) - B2R (to_b y))).
  { apply (sum_error _ (- B2R (to_b y))); auto. now apply generic_format_opp. }
  set (s := B2R (to_b x) - B2R (to_b y)) in *. pose proof (Rabs_triang (rnd s - s) s).
  replace (rnd s - s + s) with (rnd s) in H1 by ring. lra.
Qed.
Lemma fmul_finite : forall x y : float, is_number (bits x) -> is_number (bits y) ->
  (1 + u) * (Rabs (real_of (bits x)) * Rabs (real_of (bits y)) + eta) <= top ->
  is_number (bits (fmul prec emax prec_pos prec_emax x y)).
Proof.
  intros x y. cbn [fmul bits].
  rewrite <- (to_b_bits x), <- (to_b_bits y), mul_same, !is_number_finite, !real_of_B2R.
  intros Hx Hy H. apply mult_finite; auto. rewrite <- Rabs_mult in H. pose proof top_lt.
  set (s := B2R (to_b x) * B2R (to_b y)) in *. pose proof (round_error s). pose proof (Rabs_triang (rnd s - s) s).
  replace (rnd s - s + s) with (rnd s) in H2 by ring. lra.
Qed.

Lemma fadd_error : forall x y : float, is_number (bits (fadd prec emax prec_pos x y)) ->
  is_number (bits x) /\ is_number (bits y) /\
  Rabs (real_of (bits (fadd prec emax prec_pos x y)) - (real_of (bits x) + real_of (bits y))) <=
    u * Rabs (real_of (bits x) + real_of (bits y)).
Proof.
  intros x y. cbn [fadd bits]. pose proof (format_of x) as Fx. pose proof (format_of y) as Fy. revert Fx Fy.
  rewrite <- (to_b_bits x), <- (to_b_bits y), add_same, !is_number_finite, !real_of_B2R.
  intros Fx Fy H. apply plus_rounds in H as (Hx & Hy & ->). split; auto. split; auto. now apply sum_error.
Qed.

Lemma fsub_error : forall x y : float, is_number (bits (fsub prec emax prec_pos x y)) ->
  is_number (bits x) /\ is_number (bits y) /\
  Rabs (real_of (bits (fsub prec emax prec_pos x y)) - (real_of (bits x) - real_of (bits y))) <=
    u * Rabs (real_of (bits x) - real_of (bits y)).
Proof.
  intros x y. cbn [fsub bits]. pose proof (format_of x) as Fx. pose proof (format_of y) as Fy. revert Fx Fy.
  rewrite <- (to_b_bits x), <- (to_b_bits y), sub_same, !is_number_finite, !real_of_B2R.
  intros Fx Fy H. apply minus_rounds in H as (Hx & Hy & ->). split; auto. split; auto.
  apply (sum_error _ (- B2R (to_b y))); auto. now apply generic_format_opp.
Qed.

Lemma fmul_error : forall x y : float, is_number (bits (fmul prec emax prec_pos prec_emax x y)) ->
  is_number (bits x) /\ is_number (bits y) /\
  Rabs (real_of (bits (fmul prec emax prec_pos prec_emax x y)) - real_of (bits x) * real_of (bits y)) <=
    (1 + u) * (Rabs (real_of (bits x)) * Rabs (real_of (bits y)) + eta)
      - Rabs (real_of (bits x)) * Rabs (real_of (bits y)).
Proof.
  intros x y. cbn [fmul bits].
  rewrite <- (to_b_bits x), <- (to_b_bits y), mul_same, !is_number_finite, !real_of_B2R.
  intros H. apply mult_rounds in H as (Hx & Hy & ->). split; auto. split; auto.
  rewrite <- Rabs_mult. apply round_error.
Qed.

(** The largest floats bound the rounded values between them; a rounded value that is not too
    large is a float. *)
Lemma float_of_rounded : forall r, Rabs (rnd r) < bpow radix2 emax ->
  exists w : float, is_number (bits w) /\ real_of (bits w) = rnd r.
Proof.
  intros r H.
  assert (Fr : format (rnd r)) by (apply generic_format_round; auto with typeclass_instances).
  set (m := Ztrunc (scaled_mantissa radix2 (FLT_exp emin prec) (rnd r))).
  set (e := cexp radix2 (FLT_exp emin prec) (rnd r)).
  assert (E : rnd r = F2R (Float radix2 m e)) by exact Fr.
  pose proof (binary_normalize_correct prec emax prec_gt prec_lt mode_NE m e false) as C. cbv zeta in C.
  rewrite <- E in C. cbn [round_mode] in C.
  change (SpecFloat.fexp prec emax) with (FLT_exp emin prec) in C.
  rewrite (round_generic radix2 (FLT_exp emin prec) ZnearestE (rnd r) Fr) in C.
  rewrite Rlt_bool_true in C by exact H. destruct C as (C1 & C2 & _).
  exists (mkFloat (SpecFloat.binary_normalize prec emax m e false) (normalize_valid _ _ prec_pos m e false)).
  cbn [bits]. rewrite normalize_same, is_number_finite, real_of_B2R. auto.
Qed.

(** The largest float and its negative. *)
Lemma top_format : format top.
Proof.
  apply generic_format_FLT. apply (FLT_spec radix2 emin prec top (Float radix2 (2 ^ prec - 1) (emax - prec))).
  - unfold F2R, top. cbn [Fnum Fexp]. rewrite minus_IZR. change (2 ^ prec)%Z with (radix2 ^ prec)%Z.
    rewrite IZR_Zpower by lia. rewrite Rmult_minus_distr_r, <- bpow_plus, !(bpow_powerRZ radix2), Rmult_1_l.
    replace (prec + (emax - prec))%Z with emax by ring. reflexivity.
  - cbn [Fnum]. pose proof (Z.pow_pos_nonneg 2 prec). change (radix2 ^ prec)%Z with (2 ^ prec)%Z. lia.
  - cbn [Fexp]. unfold emin, SpecFloat.emin. lia.
Qed.
Lemma top_float : exists hi lo : float, is_number (bits hi) /\ real_of (bits hi) = top /\
  is_number (bits lo) /\ real_of (bits lo) = - top.
Proof.
  pose proof top_format as F. pose proof (generic_format_opp radix2 _ _ F) as G.
  assert (P : 0 <= top).
  { unfold top. rewrite <- !(bpow_powerRZ radix2). pose proof (bpow_le radix2 (emax - prec) emax ltac:(lia)). lra. }
  pose proof top_lt as L.
  destruct (float_of_rounded top) as (hi & H1 & H2).
  { rewrite round_generic by auto with typeclass_instances. rewrite Rabs_pos_eq; auto. }
  destruct (float_of_rounded (- top)) as (lo & H3 & H4).
  { rewrite round_generic by auto with typeclass_instances. rewrite Rabs_Ropp, Rabs_pos_eq; auto. }
  exists hi, lo. rewrite round_generic in H2, H4 by auto with typeclass_instances. auto.
Qed.

(** Overflow: half way between the largest float and the next number. *)
Lemma overflow_is : overflow prec emax = top + / 2 * bpow radix2 (emax - prec).
Proof.
  unfold overflow, top. rewrite <- !(bpow_powerRZ radix2). change (emax - prec - 1)%Z with (emax - prec + -1)%Z.
  rewrite bpow_plus. change (bpow radix2 (-1)) with (/ 2). lra.
Qed.
Lemma top_pred : pred radix2 (FLT_exp emin prec) (bpow radix2 emax) = top.
Proof.
  rewrite pred_bpow. unfold top. rewrite <- !(bpow_powerRZ radix2). do 3 f_equal.
  unfold FLT_exp, emin, SpecFloat.emin. lia.
Qed.
Lemma limit_format : format (bpow radix2 emax).
Proof. apply generic_format_bpow. unfold FLT_exp, emin, SpecFloat.emin. lia. Qed.
Lemma top_succ : succ radix2 (FLT_exp emin prec) top = bpow radix2 emax.
Proof. rewrite <- top_pred. apply succ_pred; auto with typeclass_instances. apply limit_format. Qed.
Lemma middle : (top + bpow radix2 emax) / 2 = overflow prec emax.
Proof.
  rewrite overflow_is. unfold top. rewrite <- !(bpow_powerRZ radix2). lra.
Qed.
Lemma below_overflow : forall r, Rabs r < overflow prec emax -> Rabs (rnd r) < bpow radix2 emax.
Proof.
  intros r H. rewrite <- round_NE_abs by auto with typeclass_instances.
  apply Rle_lt_trans with (2 := top_lt). apply round_N_le_midp; auto with typeclass_instances.
  - apply top_format.
  - rewrite top_succ, middle. exact H.
Qed.
Lemma above_overflow : forall r, overflow prec emax < Rabs r -> bpow radix2 emax <= Rabs (rnd r).
Proof.
  intros r H. rewrite <- round_NE_abs by auto with typeclass_instances.
  apply round_N_ge_midp; auto with typeclass_instances.
  - apply limit_format.
  - rewrite top_pred, Rplus_comm, middle. exact H.
Qed.

(** The float nearest to [r] has the error of one rounding. *)
Lemma nearest_error : forall (v : float) r, nearest v r ->
  Rabs (real_of (bits v) - r) <= (1 + u) * (Rabs r + eta) - Rabs r.
Proof.
  intros v r (_ & Ho & Hn). pose proof u_pos. pose proof eta_pos. pose proof top_lt as L.
  destruct (Rle_lt_dec (Rabs r) top) as [B|B].
  - destruct (float_of_rounded r) as (w & Hw & Ew).
    { apply Rle_lt_trans with (2 := L). rewrite <- round_NE_abs by auto with typeclass_instances.
      apply round_le_generic; auto using top_format with typeclass_instances. }
    apply Rle_trans with (1 := Hn w Hw). rewrite Ew. apply round_error.
  - destruct top_float as (hi & lo & N1 & E1 & N2 & E2). rewrite overflow_is in Ho.
    assert (T : bpow radix2 (emax - 1) <= top).
    { unfold top. rewrite <- !(bpow_powerRZ radix2). pose proof (bpow_le radix2 (emax - prec) (emax - 1) ltac:(lia)) as M.
      replace emax with (emax - 1 + 1)%Z at 2 by ring. rewrite bpow_plus. change (bpow radix2 1) with 2. lra. }
    assert (U : / 2 * bpow radix2 (emax - prec) = u * bpow radix2 (emax - 1)).
    { rewrite u_is, Rmult_assoc, <- bpow_plus. do 2 f_equal. ring. }
    assert (D : Rabs (real_of (bits v) - r) <= / 2 * bpow radix2 (emax - prec)).
    { destruct (Rle_lt_dec 0 r) as [P|P].
      - apply Rle_trans with (1 := Hn hi N1). rewrite E1. rewrite Rabs_pos_eq in B, Ho by exact P.
        rewrite Rabs_left1 by lra. lra.
      - apply Rle_trans with (1 := Hn lo N2). rewrite E2. rewrite Rabs_left in B, Ho by exact P.
        rewrite Rabs_pos_eq by lra. lra. }
    nra.
Qed.

(** A fused multiply-add. *)
Definition ffma (x y z : float) : float :=
  mkFloat (B2SF (Bfma mode_NE (to_b x) (to_b y) (to_b z))) (valid_binary_B2SF _ _ _).
Lemma ffma_fused : forall x y z, fused_multiply_add x y z (ffma x y z).
Proof.
  intros x y z. unfold fused_multiply_add, nearest, ffma. cbn [bits].
  rewrite <- (to_b_bits x), <- (to_b_bits y), <- (to_b_bits z). rewrite !is_number_finite, !real_of_B2R.
  set (a := to_b x). set (b := to_b y). set (c := to_b z).
  assert (C : is_finite a = true -> is_finite b = true -> is_finite c = true ->
    let r := B2R a * B2R b + B2R c in
    if Rlt_bool (Rabs (rnd r)) (bpow radix2 emax)
    then B2R (Bfma mode_NE a b c) = rnd r /\ is_finite (Bfma mode_NE a b c) = true
    else is_finite (Bfma mode_NE a b c) = false).
  { intros Fa Fb Fc r. pose proof (Bfma_correct prec emax prec_gt prec_lt mode_NE a b c Fa Fb Fc) as C.
    cbv zeta in C. cbn [round_mode] in C. change (SpecFloat.fexp prec emax) with (FLT_exp emin prec) in C.
    change (SpecFloat.emin prec emax) with emin in C. fold r in C.
    destruct (Rlt_bool (Rabs (rnd r)) (bpow radix2 emax)).
    - destruct C as (C1 & C2 & _). auto.
    - assert (N : ~ is_number (B2SF (Bfma mode_NE a b c))) by (rewrite C; cbn; auto).
      rewrite is_number_finite in N. destruct (is_finite (Bfma mode_NE a b c)); auto. congruence. }
  split.
  - intros Fv. assert (F : is_finite a = true /\ is_finite b = true /\ is_finite c = true).
    { clear C. destruct a as [sa|sa| |sa ma ea Ha], b as [sb|sb| |sb mb eb Hb], c as [sc|sc| |sc mc ec Hc];
        cbn in Fv; auto; try discriminate; cbn; auto;
        repeat match type of Fv with is_finite (if ?q then _ else _) = true => destruct q; try discriminate end. }
    destruct F as (Fa & Fb & Fc). specialize (C Fa Fb Fc). cbv zeta in C.
    set (r := B2R a * B2R b + B2R c) in *.
    destruct (Rlt_bool_spec (Rabs (rnd r)) (bpow radix2 emax)) as [H|H]; [|congruence]. destruct C as [C _].
    split; auto. split; auto. split; auto. split; auto. split.
    + apply Rnot_lt_le. intros O. apply above_overflow in O. lra.
    + intros w _. rewrite C. apply (round_N_pt radix2 (FLT_exp emin prec)).
      apply format_of.
  - intros Fa Fb Fc H. apply below_overflow in H. specialize (C Fa Fb Fc). cbv zeta in C.
    rewrite Rlt_bool_true in C by exact H. apply C.
Qed.
End Format.

(** ** The four types *)

Lemma size_real : forall x : R, size (x, 0) = Rabs x.
Proof. intros x. unfold size. cbn [fst snd]. rewrite Rabs_R0. lra. Qed.
Lemma distance_real : forall x y : R, distance (x, 0) (y, 0) = Rabs (x - y).
Proof. intros x y. unfold distance, n_sub. cbn [fst snd]. rewrite Rminus_0_r. apply size_real. Qed.

Lemma product_rounded : forall u eta a c b d p q r, 0 <= u -> 0 <= eta ->
  Rabs (p - a * c) <= (1 + u) * (Rabs a * Rabs c + eta) - Rabs a * Rabs c ->
  Rabs (q - b * d) <= (1 + u) * (Rabs b * Rabs d + eta) - Rabs b * Rabs d ->
  Rabs (r - (p + q)) <= u * Rabs (p + q) ->
  Rabs (r - (a * c + b * d)) <=
    (1 + u) ^ 2 * (Rabs a * Rabs c + Rabs b * Rabs d + 2 * eta) - (Rabs a * Rabs c + Rabs b * Rabs d).
Proof.
  intros u eta a c b d p q r Hu He Hp Hq Hr.
  rewrite <- (Rabs_mult a c), <- (Rabs_mult b d) in *.
  set (x := a * c) in *. set (y := b * d) in *.
  assert (Bp : Rabs p <= (1 + u) * (Rabs x + eta)).
  { replace p with ((p - x) + x) by ring. apply Rle_trans with (1 := Rabs_triang _ _). lra. }
  assert (Bq : Rabs q <= (1 + u) * (Rabs y + eta)).
  { replace q with ((q - y) + y) by ring. apply Rle_trans with (1 := Rabs_triang _ _). lra. }
  replace (r - (x + y)) with ((r - (p + q)) + ((p - x) + (q - y))) by ring.
  apply Rle_trans with (1 := Rabs_triang _ _). pose proof (Rabs_triang (p - x) (q - y)).
  pose proof (Rabs_triang p q).
  assert (u * Rabs (p + q) <= u * ((1 + u) * (Rabs x + eta) + (1 + u) * (Rabs y + eta)))
    by (apply Rmult_le_compat_l; lra).
  lra.
Qed.

Section Types.
Variables prec emax : Z.
Hypothesis prec_pos : (1 < prec)%Z.
Hypothesis prec_emax : (prec < emax)%Z.
Notation float := (float prec emax).
Notation u := (u prec).
Notation eta := (eta prec emax).
Notation top := (top prec emax).
Notation ops := (float_ops prec emax prec_pos prec_emax).

Lemma fof_zero : is_number (bits (fof prec emax prec_pos 0 0)) /\ real_of (bits (fof prec emax prec_pos 0 0)) = 0.
Proof. split; [exact I | reflexivity]. Qed.

Definition real_precision : Precision float := {|
  value x := (real_of (bits x), 0); finite x := is_number (bits x);
  unit_roundoff := u; tiny := eta; roundings := 1; largest := top |}.
Definition complex_precision : Precision (complex float) := {|
  value z := (real_of (bits (re z)), real_of (bits (im z)));
  finite z := is_number (bits (re z)) /\ is_number (bits (im z));
  unit_roundoff := u; tiny := 4 * eta; roundings := 2; largest := top |}.

Hypothesis one : is_number (bits (fof prec emax prec_pos 1 0)) /\ real_of (bits (fof prec emax prec_pos 1 0)) = 1.

Lemma real_rounds : forall k,
  rounds (SC := float_scalar prec emax prec_pos prec_emax k) (P := real_precision).
Proof.
  intros k. pose proof (u_pos prec). pose proof (eta_pos prec emax).
  destruct one as [O1 O2]. destruct fof_zero as [Z1 Z2].
  unfold rounds, growth, magnitude.
  cbn [unit_roundoff tiny finite value real_precision szero sone sadd smul float_scalar roundings].
  split; auto. split; auto. split; auto. split; [now rewrite Z2|]. split; auto. split; [now rewrite O2|].
  split.
  - intros x y H1. destruct (fadd_error prec emax prec_pos prec_emax x y H1) as (Fx & Fy & E).
    split; auto. split; auto. unfold n_add. cbn [fst snd]. rewrite Rplus_0_r, distance_real, size_real. exact E.
  - intros x y H1. destruct (fmul_error prec emax prec_pos prec_emax x y H1) as (Fx & Fy & E).
    split; auto. split; auto. unfold n_mul. cbn [fst snd].
    replace (real_of (bits x) * real_of (bits y) - 0 * 0) with (real_of (bits x) * real_of (bits y)) by ring.
    replace (real_of (bits x) * 0 + 0 * real_of (bits y)) with 0 by ring.
    rewrite distance_real, !size_real, pow_1. exact E.
Qed.

Lemma complex_rounds : forall k,
  rounds (SC := complex_scalar ops k) (P := complex_precision).
Proof.
  intros k. pose proof (u_pos prec) as Hu. pose proof (eta_pos prec emax) as He.
  destruct one as [O1 O2]. destruct fof_zero as [Z1 Z2].
  unfold rounds, growth, magnitude.
  cbn [unit_roundoff tiny finite value complex_precision szero sone sadd smul complex_scalar roundings re im
    rzero rone radd rsub rmul float_ops].
  split; auto. split; [lra|]. split; auto. split; [now rewrite Z2|]. split; auto. split; [now rewrite O2, Z2|].
  split.
  - intros [a b] [c d] [H1 H2]. cbn [re im] in *.
    destruct (fadd_error prec emax prec_pos prec_emax a c H1) as (Fa & Fc & E1).
    destruct (fadd_error prec emax prec_pos prec_emax b d H2) as (Fb & Fd & E2).
    split; auto. split; auto. unfold n_add, distance, n_sub, size. cbn [fst snd]. lra.
  - intros [a b] [c d] [H1 H2]. cbn [re im] in *.
    destruct (fsub_error prec emax prec_pos prec_emax _ _ H1) as (F1 & F2 & E1).
    destruct (fadd_error prec emax prec_pos prec_emax _ _ H2) as (F3 & F4 & E2).
    destruct (fmul_error prec emax prec_pos prec_emax _ _ F1) as (Fa & Fc & M1).
    destruct (fmul_error prec emax prec_pos prec_emax _ _ F2) as (Fb & Fd & M2).
    destruct (fmul_error prec emax prec_pos prec_emax _ _ F3) as (_ & _ & M3).
    destruct (fmul_error prec emax prec_pos prec_emax _ _ F4) as (_ & _ & M4).
    split; auto. split; auto. unfold n_mul, distance, n_sub, size. cbn [fst snd].
    set (ra := real_of (bits a)) in *. set (rb := real_of (bits b)) in *.
    set (rc := real_of (bits c)) in *. set (rd := real_of (bits d)) in *.
    assert (M2' : Rabs (- real_of (bits (fmul prec emax prec_pos prec_emax b d)) - (- rb) * rd) <=
      (1 + u) * (Rabs (- rb) * Rabs rd + eta) - Rabs (- rb) * Rabs rd).
    { rewrite Rabs_Ropp. replace (- real_of (bits (fmul prec emax prec_pos prec_emax b d)) - - rb * rd)
        with (- (real_of (bits (fmul prec emax prec_pos prec_emax b d)) - rb * rd)) by ring.
      rewrite Rabs_Ropp. exact M2. }
    pose proof (product_rounded _ _ _ _ _ _ _ _ _ Hu He M1 M2' E1) as R1.
    pose proof (product_rounded _ _ _ _ _ _ _ _ _ Hu He M3 M4 E2) as R2.
    rewrite Rabs_Ropp in R1. replace (ra * rc + - rb * rd) with (ra * rc - rb * rd) in R1 by ring.
    eapply Rle_trans; [apply Rplus_le_compat; [exact R1 | exact R2]|]. apply Req_le. ring.
Qed.

Lemma real_finite : forall k,
  stays_finite (SC := float_scalar prec emax prec_pos prec_emax k) (P := real_precision).
Proof.
  intros k. pose proof (u_pos prec). unfold stays_finite, growth, magnitude.
  cbn [unit_roundoff tiny finite value real_precision sadd smul float_scalar roundings largest].
  split; intros x y Fx Fy B; rewrite !size_real in B.
  - apply fadd_finite; auto. pose proof (Rabs_triang (real_of (bits x)) (real_of (bits y))). nra.
  - rewrite pow_1 in B. apply fmul_finite; auto.
Qed.

Lemma complex_finite : forall k,
  stays_finite (SC := complex_scalar ops k) (P := complex_precision).
Proof.
  intros k. pose proof (u_pos prec) as Hu. pose proof (eta_pos prec emax) as He. unfold stays_finite, growth, magnitude.
  cbn [unit_roundoff tiny finite value complex_precision sadd smul complex_scalar roundings re im
    radd rsub rmul float_ops largest].
  split; intros [a b] [c d] [Fa Fb] [Fc Fd] B; unfold size in B; cbn [re im fst snd] in *.
  - set (ra := real_of (bits a)) in *. set (rb := real_of (bits b)) in *.
    set (rc := real_of (bits c)) in *. set (rd := real_of (bits d)) in *.
    pose proof (Rabs_triang ra rc). pose proof (Rabs_triang rb rd).
    pose proof (Rabs_pos ra). pose proof (Rabs_pos rb). pose proof (Rabs_pos rc). pose proof (Rabs_pos rd).
    split; apply fadd_finite; auto; unfold ra, rb, rc, rd in *; nra.
  - assert (P : forall x y : float, is_number (bits x) -> is_number (bits y) ->
      Rabs (real_of (bits x)) * Rabs (real_of (bits y)) <=
        (Rabs (real_of (bits a)) + Rabs (real_of (bits b))) * (Rabs (real_of (bits c)) + Rabs (real_of (bits d))) ->
      is_number (bits (fmul prec emax prec_pos prec_emax x y)) /\
      Rabs (real_of (bits (fmul prec emax prec_pos prec_emax x y))) <=
        (1 + u) * (Rabs (real_of (bits x)) * Rabs (real_of (bits y)) + eta)).
    { intros x y Fx Fy L. assert (Fm : is_number (bits (fmul prec emax prec_pos prec_emax x y))).
      { apply fmul_finite; auto. pose proof (Rabs_pos (real_of (bits x))). pose proof (Rabs_pos (real_of (bits y))).
        apply Rle_trans with (2 := B).
        replace ((1 + u) ^ 2) with ((1 + u) * (1 + u)) by ring.
        assert (0 <= Rabs (real_of (bits x)) * Rabs (real_of (bits y))) by (apply Rmult_le_pos; auto).
        set (q := Rabs (real_of (bits x)) * Rabs (real_of (bits y))) in *.
        set (w := (Rabs (real_of (bits a)) + Rabs (real_of (bits b))) * (Rabs (real_of (bits c)) + Rabs (real_of (bits d)))) in *.
        rewrite Rmult_assoc. apply Rmult_le_compat_l; [lra|]. nra. }
      split; auto. destruct (fmul_error prec emax prec_pos prec_emax x y Fm) as (_ & _ & E).
      set (v := real_of (bits (fmul prec emax prec_pos prec_emax x y))) in *.
      set (r := real_of (bits x) * real_of (bits y)) in *.
      pose proof (Rabs_triang (v - r) r) as Ht. replace (v - r + r) with v in Ht by ring.
      unfold r in Ht at 2. rewrite Rabs_mult in Ht. lra. }
    pose proof (Rabs_pos (real_of (bits a))) as A0. pose proof (Rabs_pos (real_of (bits b))) as B0.
    pose proof (Rabs_pos (real_of (bits c))) as C0. pose proof (Rabs_pos (real_of (bits d))) as D0.
    destruct (P a c Fa Fc) as [M1 E1]; [nra|]. destruct (P b d Fb Fd) as [M2 E2]; [nra|].
    destruct (P a d Fa Fd) as [M3 E3]; [nra|]. destruct (P b c Fb Fc) as [M4 E4]; [nra|]. clear P.
    replace ((1 + u) ^ 2) with ((1 + u) * (1 + u)) in B by ring. rewrite Rmult_assoc in B.
    set (p1 := real_of (bits (fmul prec emax prec_pos prec_emax a c))) in *.
    set (p2 := real_of (bits (fmul prec emax prec_pos prec_emax b d))) in *.
    set (p3 := real_of (bits (fmul prec emax prec_pos prec_emax a d))) in *.
    set (p4 := real_of (bits (fmul prec emax prec_pos prec_emax b c))) in *.
    set (ra := Rabs (real_of (bits a))) in *. set (rb := Rabs (real_of (bits b))) in *.
    set (rc := Rabs (real_of (bits c))) in *. set (rd := Rabs (real_of (bits d))) in *.
    pose proof (Rmult_le_pos _ _ A0 C0). pose proof (Rmult_le_pos _ _ B0 D0).
    pose proof (Rmult_le_pos _ _ A0 D0). pose proof (Rmult_le_pos _ _ B0 C0).
    assert (Ht1 : Rabs (p1 - p2) <= Rabs p1 + Rabs p2).
    { unfold Rminus. rewrite <- (Rabs_Ropp p2). apply Rabs_triang. }
    pose proof (Rabs_triang p3 p4) as Ht2.
    split.
    + apply fsub_finite; auto. fold p1 p2. apply Rle_trans with (2 := B). apply Rmult_le_compat_l; [lra|]. nra.
    + apply fadd_finite; auto. fold p3 p4. apply Rle_trans with (2 := B). apply Rmult_le_compat_l; [lra|]. nra.
Qed.

Lemma real_fused : forall x y z v : float, fused_multiply_add x y z v -> fused (P := real_precision) x y z v.
Proof.
  intros x y z v [H1 H2]. split.
  - intros Fv. cbn [finite value real_precision] in *.
    destruct (H1 Fv) as (Fx & Fy & Fz & Hn).
    split; auto. split; auto. split; auto.
    pose proof (nearest_error prec emax prec_pos prec_emax v _ Hn) as E.
    unfold n_mul, n_add, growth, magnitude.
    cbn [fst snd value real_precision unit_roundoff tiny roundings].
    match goal with |- distance _ ?p <= _ =>
      replace p with (real_of (bits x) * real_of (bits y) + real_of (bits z), 0) by (f_equal; ring) end.
    rewrite distance_real, !size_real, pow_1. apply Rle_trans with (1 := E).
    pose proof (u_pos prec). pose proof (eta_pos prec emax).
    pose proof (Rabs_triang (real_of (bits x) * real_of (bits y)) (real_of (bits z))) as Ht. rewrite Rabs_mult in Ht.
    nra.
  - cbn [finite value real_precision unit_roundoff tiny roundings largest]. unfold growth, magnitude.
    cbn [finite value real_precision unit_roundoff tiny roundings largest]. intros Fx Fy Fz B.
    rewrite !size_real, pow_1 in B. apply H2; auto.
    rewrite overflow_is by lia. pose proof (bpow_gt_0 radix2 (emax - prec)).
    pose proof (Rabs_triang (real_of (bits x) * real_of (bits y)) (real_of (bits z))) as Ht. rewrite Rabs_mult in Ht.
    pose proof (u_pos prec). pose proof (eta_pos prec emax).
    pose proof (Rmult_le_pos _ _ (Rabs_pos (real_of (bits x))) (Rabs_pos (real_of (bits y)))).
    pose proof (Rabs_pos (real_of (bits z))). nra.
Qed.
End Types.

Lemma scaled_one : forall m n, IZR (Zpos m) = powerRZ 2 n -> IZR (Zpos m) * powerRZ 2 (- n) = 1.
Proof. intros m n ->. rewrite <- powerRZ_add by lra. now rewrite Z.add_opp_diag_r. Qed.

Lemma one32 : is_number (bits (fof 24 128 eq_refl 1 0)) /\ real_of (bits (fof 24 128 eq_refl 1 0)) = 1.
Proof.
  replace (bits (fof 24 128 eq_refl 1 0)) with (S754_finite false 8388608 (-23)) by (vm_compute; reflexivity).
  split; [exact I|]. apply (scaled_one 8388608 23). rewrite <- (bpow_powerRZ radix2). reflexivity.
Qed.
Lemma one64 : is_number (bits (fof 53 1024 eq_refl 1 0)) /\ real_of (bits (fof 53 1024 eq_refl 1 0)) = 1.
Proof.
  replace (bits (fof 53 1024 eq_refl 1 0)) with (S754_finite false 4503599627370496 (-52)) by (vm_compute; reflexivity).
  split; [exact I|]. apply (scaled_one 4503599627370496 52). rewrite <- (bpow_powerRZ radix2). reflexivity.
Qed.

Lemma types_round : rounds (T := real32) /\ rounds (T := real64) /\ rounds (T := complex32) /\ rounds (T := complex64).
Proof.
  split; [exact (real_rounds 24 128 eq_refl eq_refl one32 4)|].
  split; [exact (real_rounds 53 1024 eq_refl eq_refl one64 8)|].
  split; [exact (complex_rounds 24 128 eq_refl eq_refl one32 4) | exact (complex_rounds 53 1024 eq_refl eq_refl one64 8)].
Qed.

Lemma types_finite :
  stays_finite (T := real32) /\ stays_finite (T := real64) /\ stays_finite (T := complex32) /\ stays_finite (T := complex64).
Proof.
  split; [exact (real_finite 24 128 eq_refl eq_refl 4)|].
  split; [exact (real_finite 53 1024 eq_refl eq_refl 8)|].
  split; [exact (complex_finite 24 128 eq_refl eq_refl 4) | exact (complex_finite 53 1024 eq_refl eq_refl 8)].
Qed.

Lemma types_fused :
  (forall x y z v : real32, fused_multiply_add x y z v -> fused x y z v) /\
  (forall x y z v : real64, fused_multiply_add x y z v -> fused x y z v).
Proof. split; [exact (real_fused 24 128 eq_refl eq_refl) | exact (real_fused 53 1024 eq_refl eq_refl)]. Qed.

(** Fused multiply-add for the two types. *)
Definition fma32 : real32 -> real32 -> real32 -> real32 := ffma 24 128 eq_refl eq_refl.
Definition fma64 : real64 -> real64 -> real64 -> real64 := ffma 53 1024 eq_refl eq_refl.
Lemma fma_exists :
  (forall x y z, fused_multiply_add x y z (fma32 x y z)) /\ (forall x y z, fused_multiply_add x y z (fma64 x y z)).
Proof. split; [exact (ffma_fused 24 128 eq_refl eq_refl) | exact (ffma_fused 53 1024 eq_refl eq_refl)]. Qed.
