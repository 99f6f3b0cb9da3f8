(** * F64Facts: the floating point part of [UpperTriangular::convert_1d_2d].

    The operations of F64.v are those of Flocq's binary64 (so each one rounds the
    exact real result to nearest even); for an index below 2^53 the computed [p] is
    the exact integer. *)

From Coq Require Import ZArith NArith Reals Lia Lra Psatz Floats.SpecFloat.
From Flocq Require Import Core.Core IEEE754.BinarySingleNaN.
From Verif Require Import Machine F64.
Local Open Scope R_scope.

(** ** Link to Flocq *)

Definition b64 : Type := binary_float 53 1024.
#[local] Instance prec53 : Prec_gt_0 53 := eq_refl.
#[local] Instance emax1024 : Prec_lt_emax 53 1024 := eq_refl.

Notation format := (generic_format radix2 (FLT_exp (-1074) 53)).
Definition rnd (x : R) : R := round radix2 (FLT_exp (-1074) 53) ZnearestE x.

Lemma round_aux_equiv : forall s m e l,
  SpecFloat.binary_round_aux 53 1024 s m e l = binary_round_aux 53 1024 mode_NE s m e l.
Proof.
  intros s m e l. unfold SpecFloat.binary_round_aux, binary_round_aux.
  destruct (SpecFloat.shr_fexp 53 1024 m e l) as [mrs e'].
  replace (SpecFloat.round_nearest_even (SpecFloat.shr_m mrs) (SpecFloat.loc_of_shr_record mrs))
    with (choice_mode mode_NE s (SpecFloat.shr_m mrs) (SpecFloat.loc_of_shr_record mrs)); [reflexivity|].
  destruct (SpecFloat.loc_of_shr_record mrs) as [|[]]; try reflexivity.
  cbn. unfold Round.cond_incr. now destruct (Z.even _).
Qed.

Lemma round_equiv : forall s m e,
  SpecFloat.binary_round 53 1024 s m e = binary_round 53 1024 mode_NE s m e.
Proof.
  intros s m e. unfold SpecFloat.binary_round, binary_round, shl_align_fexp.
  destruct (SpecFloat.shl_align _ _ _) as [m' e']. apply round_aux_equiv.
Qed.

Lemma normalize_equiv : forall m e,
  f64_of m e = B2SF (binary_normalize 53 1024 prec53 emax1024 mode_NE m e false).
Proof.
  intros m e. unfold f64_of. destruct m as [|m|m]; cbn [SpecFloat.binary_normalize binary_normalize].
  - reflexivity.
  - rewrite B2SF_SF2B. apply round_equiv.
  - rewrite B2SF_SF2B. apply round_equiv.
Qed.

Lemma add_equiv : forall x y : b64, f64_add (B2SF x) (B2SF y) = B2SF (Bplus mode_NE x y).
Proof.
  intros [sx|sx| |sx mx ex Bx] [sy|sy| |sy my ey By];
    try (cbn; now (trivial || destruct (Bool.eqb _ _))).
  unfold f64_add. cbn [B2SF SFadd Bplus]. apply normalize_equiv.
Qed.

Lemma mul_equiv : forall x y : b64, f64_mul (B2SF x) (B2SF y) = B2SF (Bmult mode_NE x y).
Proof.
  intros [sx|sx| |sx mx ex Bx] [sy|sy| |sy my ey By]; try reflexivity.
  unfold f64_mul. cbn [B2SF SFmul Bmult]. rewrite B2SF_SF2B. apply round_aux_equiv.
Qed.

Lemma sqrt_equiv : forall x : b64, f64_sqrt (B2SF x) = B2SF (Bsqrt mode_NE x).
Proof.
  intros [sx|sx| |sx mx ex Bx]; [reflexivity | now destruct sx | reflexivity |].
  destruct sx; [reflexivity|]. unfold f64_sqrt. cbn [B2SF SFsqrt Bsqrt]. rewrite B2SF_SF2B.
  destruct (SpecFloat.SFsqrt_core_binary 53 1024 (Z.pos mx) ex) as [[m e] l]. apply round_aux_equiv.
Qed.

(** [x] is a finite float of value [r]. *)
Definition is_real (x : f64) (r : R) : Prop :=
  exists b : b64, x = B2SF b /\ is_finite b = true /\ B2R b = r.

Lemma is_real_format : forall x r, is_real x r -> format r.
Proof. intros x r (b & _ & _ & <-). apply generic_format_B2R. Qed.

Lemma of_real : forall m e, Rabs (rnd (IZR m * bpow radix2 e)) < bpow radix2 1024 ->
  is_real (f64_of m e) (rnd (IZR m * bpow radix2 e)).
Proof.
  intros m e H. exists (binary_normalize 53 1024 prec53 emax1024 mode_NE m e false).
  rewrite normalize_equiv.
  pose proof (binary_normalize_correct 53 1024 prec53 emax1024 mode_NE m e false) as C. cbv zeta in C.
  rewrite Rlt_bool_true in C by exact H. destruct C as (C1 & C2 & _). split; auto.
Qed.

Lemma add_real : forall x y a b, is_real x a -> is_real y b ->
  Rabs (rnd (a + b)) < bpow radix2 1024 -> is_real (f64_add x y) (rnd (a + b)).
Proof.
  intros x y a b (bx & -> & Fx & <-) (by_ & -> & Fy & <-) H. exists (Bplus mode_NE bx by_).
  rewrite add_equiv. pose proof (Bplus_correct 53 1024 prec53 emax1024 mode_NE bx by_ Fx Fy) as C.
  rewrite Rlt_bool_true in C by exact H. destruct C as (C1 & C2 & _). auto.
Qed.

Lemma mul_real : forall x y a b, is_real x a -> is_real y b ->
  Rabs (rnd (a * b)) < bpow radix2 1024 -> is_real (f64_mul x y) (rnd (a * b)).
Proof.
  intros x y a b (bx & -> & Fx & <-) (by_ & -> & Fy & <-) H. exists (Bmult mode_NE bx by_).
  rewrite mul_equiv. pose proof (Bmult_correct 53 1024 prec53 emax1024 mode_NE bx by_) as C.
  rewrite Rlt_bool_true in C by exact H. destruct C as (C1 & C2 & _). rewrite Fx, Fy in C2. auto.
Qed.

Lemma sqrt_real : forall x a, is_real x a -> 0 < a -> is_real (f64_sqrt x) (rnd (sqrt a)).
Proof.
  intros x a (bx & -> & Fx & <-) H. exists (Bsqrt mode_NE bx).
  rewrite sqrt_equiv. destruct (Bsqrt_correct 53 1024 prec53 emax1024 mode_NE bx) as (C1 & C2 & _).
  split; auto. split; auto. rewrite C2.
  destruct bx as [s|s| |s m e B]; auto; try discriminate.
  destruct s; auto. exfalso. apply Rlt_not_le in H. apply H. apply F2R_le_0. cbn. lia.
Qed.

(** ** The format *)

Lemma format_intro : forall m e, (Z.abs m < 2 ^ 53)%Z -> (-1074 <= e)%Z -> format (IZR m * bpow radix2 e).
Proof.
  intros m e H1 H2. apply generic_format_FLT. exists (Float radix2 m e); auto.
Qed.

Lemma format_int : forall m, (Z.abs m < 2 ^ 53)%Z -> format (IZR m).
Proof. intros m H. replace (IZR m) with (IZR m * bpow radix2 0) by (cbn; ring). now apply format_intro. Qed.

Lemma format_multiple : forall x k, format x -> bpow radix2 k <= Rabs x ->
  exists z, x = IZR z * bpow radix2 (k - 52).
Proof.
  intros x k Hx Hk. apply FLT_format_generic in Hx; [|exact eq_refl]. destruct Hx as [[m e] -> Hm He].
  cbn [Fnum Fexp] in Hm, He. change (radix2 ^ 53)%Z with (2 ^ 53)%Z in Hm.
  assert (Hlt : (k < 53 + e)%Z).
  { apply (lt_bpow radix2). eapply Rle_lt_trans; [exact Hk|]. rewrite <- F2R_Zabs. unfold F2R. cbn [Fnum Fexp].
    rewrite bpow_plus. apply Rmult_lt_compat_r; [apply bpow_gt_0|]. change (bpow radix2 53) with (IZR (2 ^ 53)).
    now apply IZR_lt. }
  exists (m * 2 ^ (e - (k - 52)))%Z. unfold F2R. cbn [Fnum Fexp]. rewrite mult_IZR.
  change 2%Z with (radix_val radix2) at 1. rewrite IZR_Zpower by lia. rewrite Rmult_assoc, <- bpow_plus. f_equal. f_equal. lia.
Qed.

Lemma rnd_format : forall x, format (rnd x).
Proof. intros x. apply generic_format_round; auto with typeclass_instances. Qed.

Lemma rnd_id : forall x, format x -> rnd x = x.
Proof. intros x H. apply round_generic; auto with typeclass_instances. Qed.

Lemma rnd_le : forall x y, x <= y -> rnd x <= rnd y.
Proof. intros x y H. apply round_le; auto with typeclass_instances. Qed.

Lemma rnd_nearest : forall x t, format t -> Rabs (rnd x - x) <= Rabs (t - x).
Proof.
  intros x t Ht. destruct (round_N_pt radix2 (FLT_exp (-1074) 53) (fun z => negb (Z.even z)) x) as [_ H].
  now apply H.
Qed.

(** ** Floor *)

Lemma floor_real : forall x r, is_real x r -> 0 <= IZR (Zfloor r) < IZR (Z.of_N usize_mod) ->
  f64_floor_as_usize x = Z.to_N (Zfloor r).
Proof.
  intros x r (b & -> & F & <-) H.
  assert (H' : (0 <= Zfloor (B2R b) < Z.of_N usize_mod)%Z) by (split; [apply le_IZR | apply lt_IZR]; apply H).
  destruct b as [s|s| |s m e B]; try discriminate F; cbn [B2SF f64_floor_as_usize].
  - cbn [B2R]. now rewrite Zfloor_IZR.
  - assert (E : floor_finite s m e = Zfloor (B2R (B754_finite s m e B))).
    { cbn [B2R]. unfold floor_finite, F2R. cbn [Fnum Fexp].
      set (v := SpecFloat.cond_Zopp s (Z.pos m)).
      destruct (Z.leb_spec 0 e) as [He|He].
      - rewrite <- IZR_Zpower by lia. rewrite <- mult_IZR, Zfloor_IZR. reflexivity.
      - replace (bpow radix2 e) with (/ IZR (2 ^ (- e))).
        + rewrite <- (Zfloor_div v (2 ^ (- e))) by (apply Z.pow_nonzero; lia). reflexivity.
        + change 2%Z with (radix_val radix2). rewrite IZR_Zpower by lia.
          rewrite <- bpow_opp. f_equal. lia. }
    rewrite E. set (z := Zfloor _) in *. clearbody z. unfold saturate_usize.
    destruct (Z.ltb_spec z 0); [lia|]. destruct (Z.leb_spec (Z.of_N usize_mod) z); [lia|]. reflexivity.
Qed.

(** ** Error analysis *)

(** The rounded [0.25 + 2 i], the rounded square root of that, and the rounded
    difference with 0.5. *)
Definition ry (i : R) : R := rnd (1 / 4 + 2 * i).
Definition rs (i : R) : R := rnd (sqrt (ry i)).

Section Analysis.
Variables p i : Z.
Hypothesis Hp : (0 <= p)%Z.
Hypothesis Hlo : (p * (p + 1) <= 2 * i)%Z.
Hypothesis Hhi : (2 * i + 2 <= (p + 1) * (p + 2))%Z.
Hypothesis Hi : (i < 2 ^ 53)%Z.

Notation P := (IZR p).
Notation I := (IZR i).

Lemma i_nonneg : (0 <= i)%Z.
Proof. nia. Qed.

Lemma p_bound : (p <= 2 ^ 27 - 1)%Z.
Proof. change (2 ^ 53)%Z with 9007199254740992%Z in Hi. change (2 ^ 27)%Z with 134217728%Z. nia. Qed.

Lemma lo_R : P * P + P <= 2 * I.
Proof. apply IZR_le in Hlo. rewrite !mult_IZR, plus_IZR in Hlo. lra. Qed.

Lemma hi_R : 2 * I <= P * P + 3 * P.
Proof. apply IZR_le in Hhi. rewrite plus_IZR, !mult_IZR, !plus_IZR in Hhi. lra. Qed.

Lemma P_nonneg : 0 <= P.
Proof. now apply IZR_le. Qed.

Lemma I_nonneg : 0 <= I.
Proof. apply IZR_le. exact i_nonneg. Qed.

Lemma I_bound : I < 9007199254740992.
Proof. now apply IZR_lt. Qed.

Lemma format_2i : format (2 * I).
Proof.
  replace (2 * I) with (I * bpow radix2 1) by (cbn; ring). apply format_intro; [|lia].
  pose proof i_nonneg. lia.
Qed.

Lemma ry_near : Rabs (ry I - (1 / 4 + 2 * I)) <= 1 / 4.
Proof.
  eapply Rle_trans; [apply (rnd_nearest _ (2 * I)); exact format_2i|].
  rewrite Rabs_left1; lra.
Qed.

Lemma ry_lo : 2 * I <= ry I.
Proof. pose proof ry_near as H. apply Rabs_le_inv in H. lra. Qed.

Lemma ry_hi : ry I <= 2 * I + 1 / 2.
Proof. pose proof ry_near as H. apply Rabs_le_inv in H. lra. Qed.

(** Small indices: the sum is exact. *)
Lemma ry_exact : (i < 2 ^ 50)%Z -> ry I = 1 / 4 + 2 * I.
Proof.
  intros H. apply rnd_id. replace (1 / 4 + 2 * I) with (IZR (8 * i + 1) * bpow radix2 (-2)).
  - apply format_intro; [|lia]. pose proof i_nonneg. lia.
  - rewrite plus_IZR, mult_IZR. cbn. lra.
Qed.

(** Large indices: the quarter is lost. *)
Lemma ry_large : (2 ^ 52 <= i)%Z -> ry I = 2 * I.
Proof.
  intros H. assert (HI : 4503599627370496 <= I) by now apply IZR_le.
  assert (Hy := ry_lo). assert (Hy' := ry_hi).
  destruct (format_multiple (ry I) 53) as (z & Ez).
  - apply rnd_format.
  - rewrite Rabs_pos_eq by lra. change (bpow radix2 53) with 9007199254740992. lra.
  - change (bpow radix2 (53 - 52)) with 2 in Ez.
    assert (z = i); [|subst z; lra].
    apply Z.le_antisymm; [apply Z.lt_succ_r; unfold Z.succ|]; [apply lt_IZR; rewrite plus_IZR | apply le_IZR]; lra.
Qed.

Lemma format_half : forall q, (0 <= q <= 2 ^ 27)%Z -> format (IZR q + 1 / 2).
Proof.
  intros q H. replace (IZR q + 1 / 2) with (IZR (2 * q + 1) * bpow radix2 (-1)).
  - apply format_intro; lia.
  - rewrite plus_IZR, mult_IZR. cbn. lra.
Qed.

Lemma rs_lo : P + 1 / 2 <= rs I.
Proof.
  pose proof P_nonneg as HP. pose proof lo_R as HL. pose proof p_bound as HB.
  assert (Ff : format (P + 1 / 2)) by (apply format_half; lia).
  destruct (Z_lt_le_dec i (2 ^ 50)) as [Hs|Hs].
  - unfold rs. rewrite <- (rnd_id _ Ff) at 1. apply rnd_le. rewrite ry_exact by exact Hs.
    rewrite <- (sqrt_square (P + 1 / 2)) by lra. apply sqrt_le_1_alt. lra.
  - destruct (Rle_or_lt (P + 1 / 2) (rs I)) as [|Hn]; auto. exfalso.
    assert (HI : 1125899906842624 <= I) by now apply IZR_le.
    pose proof ry_lo as Hy. set (v := sqrt (ry I)) in *.
    assert (Hv2 : v * v = ry I) by (apply sqrt_sqrt; lra).
    assert (Hv : 33554432 <= v).
    { unfold v. rewrite <- (sqrt_square 33554432) by lra. apply sqrt_le_1_alt. lra. }
    assert (Hs25 : 33554432 <= rs I).
    { replace 33554432 with (rnd 33554432); [now apply rnd_le|]. apply rnd_id. now apply (format_int 33554432). }
    destruct (format_multiple (rs I) 25) as (z & Ez).
    { apply rnd_format. }
    { rewrite Rabs_pos_eq by lra. change (bpow radix2 25) with 33554432. lra. }
    change (bpow radix2 (25 - 52)) with (/ 134217728) in Ez.
    assert (Hgap : rs I <= P + 1 / 2 - / 134217728).
    { assert (z <= (2 * p + 1) * 67108864 - 1)%Z.
      { assert (z < (2 * p + 1) * 67108864)%Z; [|lia].
        apply lt_IZR. rewrite mult_IZR, plus_IZR, mult_IZR. lra. }
      apply IZR_le in H. rewrite minus_IZR, mult_IZR, plus_IZR, mult_IZR in H. lra. }
    assert (Hnear := rnd_nearest v (P + 1 / 2) Ff). change (rnd v) with (rs I) in Hnear.
    destruct (Rle_or_lt (P + 1 / 2) v) as [Hc|Hc].
    { assert (P + 1 / 2 <= rs I); [|lra]. rewrite <- (rnd_id _ Ff). now apply rnd_le. }
    rewrite (Rabs_pos_eq (P + 1 / 2 - v)) in Hnear by lra.
    assert (v <= P + 1 / 2 - / 268435456).
    { destruct (Rle_or_lt (rs I) v).
      - rewrite Rabs_left1 in Hnear by lra. lra.
      - lra. }
    assert (HP' : 47000000 <= P).
    { apply IZR_le. change (2 ^ 50)%Z with 1125899906842624%Z in Hs. nia. }
    nra.
Qed.

Lemma rs_hi : rs I < P + 3 / 2.
Proof.
  pose proof P_nonneg as HP. pose proof hi_R as HH. pose proof p_bound as HB. pose proof lo_R as HL.
  pose proof I_nonneg as HI0. pose proof I_bound as HIB.
  set (g := P + 3 / 2). assert (Hy := ry_hi). assert (Hy0 := ry_lo).
  set (v := sqrt (ry I)) in *.
  assert (Hv2 : v * v = ry I) by (apply sqrt_sqrt; lra).
  assert (Hv0 : 0 <= v) by apply sqrt_pos.
  (* the largest row *)
  destruct (Z.eq_dec p (2 ^ 27 - 1)) as [Ep|Ep].
  { assert (P = 134217727) by now rewrite Ep.
    assert (rs I <= 134217728); [|unfold g; lra].
    assert (F : format 134217728) by now apply (format_int 134217728).
    rewrite <- (rnd_id _ F). apply rnd_le. fold v.
    assert (ry I <= 18014398509481984).
    { destruct (Z_lt_le_dec i (2 ^ 52)) as [Hs|Hs].
      - assert (I <= 4503599627370496) by (apply IZR_le; lia). lra.
      - rewrite (ry_large Hs). lra. }
    nra. }
  assert (HPb : P <= 134217726) by (apply IZR_le; lia).
  assert (Ft : format (g - / 67108864)).
  { replace (g - / 67108864) with (IZR ((2 * p + 3) * 33554432 - 1) * bpow radix2 (-26)).
    - apply format_intro; lia.
    - rewrite minus_IZR, mult_IZR, plus_IZR, mult_IZR. change (bpow radix2 (-26)) with (/ 67108864).
      unfold g. lra. }
  destruct (Rlt_or_le (rs I) g) as [|Hn]; auto. exfalso.
  assert (Hnear := rnd_nearest v _ Ft). change (rnd v) with (rs I) in Hnear.
  destruct (Rle_or_lt v (g - / 67108864)) as [Hc|Hc].
  { assert (rs I <= g - / 67108864); [|lra]. rewrite <- (rnd_id _ Ft). now apply rnd_le. }
  rewrite (Rabs_left1 (g - / 67108864 - v)) in Hnear by lra.
  assert (Hvg : v <= g).
  { assert (v * v <= g * g) by (unfold g; lra). apply Rsqr_incr_0_var; [exact H | unfold g; lra]. }
  rewrite Rabs_pos_eq in Hnear by lra.
  assert (Hv : g - / 134217728 <= v) by lra.
  assert (Hsq : g * g - g * / 67108864 <= ry I).
  { rewrite <- Hv2. assert (0 <= g - / 134217728) by (unfold g; lra). nra. }
  destruct (Z_lt_le_dec i (2 ^ 52)) as [Hs|Hs].
  - (* below 2^52 *)
    assert (HPs : P <= 94906265).
    { apply IZR_le. change (2 ^ 52)%Z with 4503599627370496%Z in Hs. nia. }
    unfold g in *. lra.
  - rewrite (ry_large Hs) in Hsq. unfold g in *. lra.
Qed.

(** The last difference is exact. *)
Lemma rs_minus_half : format (rs I - 1 / 2).
Proof.
  pose proof P_nonneg as HP. pose proof rs_lo as HL. pose proof rs_hi as HH.
  assert (HPb : P <= 134217727) by (apply IZR_le; apply p_bound).
  assert (F : format (rs I)) by apply rnd_format. apply FLT_format_generic in F; [|exact eq_refl].
  destruct F as [[m e] Ef Hm He]. cbn [Fnum Fexp] in Hm, He. unfold F2R in Ef. cbn [Fnum Fexp] in Ef.
  destruct (Z_le_gt_dec e (-1)) as [H1|H1].
  - replace (rs I - 1 / 2) with (IZR (m - 2 ^ (- 1 - e)) * bpow radix2 e).
    + apply format_intro; auto. change (radix2 ^ 53)%Z with (2 ^ 53)%Z in Hm.
      assert (0 <= m - 2 ^ (-1 - e) <= m)%Z; [|lia].
      assert (B : IZR (2 ^ (- 1 - e)) * bpow radix2 e = 1 / 2).
      { change 2%Z with (radix_val radix2). rewrite IZR_Zpower by lia. rewrite <- bpow_plus.
        replace (-1 - e + e)%Z with (-1)%Z by lia. cbn. lra. }
      split; [|pose proof (Z.pow_nonneg 2 (-1 - e)); lia].
      apply Z.le_0_sub. apply le_IZR. apply Rmult_le_reg_r with (bpow radix2 e); [apply bpow_gt_0|]. lra.
    + rewrite minus_IZR. assert (B : IZR (2 ^ (- 1 - e)) * bpow radix2 e = 1 / 2).
      { change 2%Z with (radix_val radix2). rewrite IZR_Zpower by lia. rewrite <- bpow_plus.
        replace (-1 - e + e)%Z with (-1)%Z by lia. cbn. lra. }
      rewrite Rmult_minus_distr_r, B, Ef. reflexivity.
  - replace (rs I - 1 / 2) with (IZR (2 * (m * 2 ^ e) - 1) * bpow radix2 (-1)).
    + apply format_intro; [|lia].
      assert (E : IZR (m * 2 ^ e) = rs I).
      { rewrite mult_IZR. change 2%Z with (radix_val radix2). rewrite IZR_Zpower by lia. now rewrite Ef. }
      assert (0 < m * 2 ^ e < 200000000)%Z by (split; apply lt_IZR; lra). lia.
    + rewrite minus_IZR, mult_IZR, mult_IZR. change 2%Z with (radix_val radix2) at 2.
      rewrite IZR_Zpower by lia. rewrite Ef. cbn. lra.
Qed.

Lemma ut_p_Z : ut_p (Z.to_N i) = Z.to_N p.
Proof.
  pose proof P_nonneg as HP. pose proof rs_lo as HL. pose proof rs_hi as HH.
  assert (HPb : P <= 134217727) by (apply IZR_le; apply p_bound).
  pose proof I_nonneg as HI0. pose proof I_bound as HIB. pose proof i_nonneg as Hi0.
  assert (B1024 : 1152921504606846976 < bpow radix2 1024).
  { change 1152921504606846976 with (bpow radix2 60). apply bpow_lt. lia. }
  assert (R1 : is_real (f64_of_usize (Z.to_N i)) I).
  { unfold f64_of_usize. rewrite Z2N.id by lia.
    assert (E : rnd (I * bpow radix2 0) = I).
    { replace (I * bpow radix2 0) with I by (cbn; ring). apply rnd_id. apply format_int. lia. }
    rewrite <- E. apply of_real. rewrite E, Rabs_pos_eq; lra. }
  assert (L : forall m e x, (Z.abs m < 2 ^ 53)%Z -> (-1074 <= e)%Z -> IZR m * bpow radix2 e = x -> Rabs x < 1152921504606846976 ->
     is_real (f64_of m e) x).
  { intros m e x H1 H2 H3 H4. assert (E : rnd (IZR m * bpow radix2 e) = x).
    { rewrite rnd_id; [exact H3|]. now apply format_intro. }
    rewrite <- E. apply of_real. rewrite E. lra. }
  assert (R2 : is_real (f64_mul f64_two (f64_of_usize (Z.to_N i))) (2 * I)).
  { rewrite <- (rnd_id _ format_2i). apply mul_real; auto.
    - apply L; try lia; [cbn; lra|]. rewrite Rabs_pos_eq; lra.
    - rewrite (rnd_id _ format_2i), Rabs_pos_eq; lra. }
  assert (Hy1 := ry_lo). assert (Hy2 := ry_hi).
  assert (R3 : is_real (f64_add f64_quarter (f64_mul f64_two (f64_of_usize (Z.to_N i)))) (ry I)).
  { apply add_real; auto.
    - apply L; try lia; [cbn; lra|]. rewrite Rabs_pos_eq; lra.
    - fold (ry I). rewrite Rabs_pos_eq; lra. }
  assert (Hy0 : 0 < ry I).
  { destruct (Z_lt_le_dec i (2 ^ 50)) as [H|H].
    - rewrite ry_exact by auto. lra.
    - apply IZR_le in H. lra. }
  assert (R4 := sqrt_real _ _ R3 Hy0). fold (rs I) in R4.
  assert (R5 : is_real (f64_add f64_minus_half (f64_sqrt (f64_add f64_quarter (f64_mul f64_two (f64_of_usize (Z.to_N i))))))
                 (rs I - 1 / 2)).
  { rewrite <- (rnd_id _ rs_minus_half). replace (rs I - 1 / 2) with (- (1 / 2) + rs I) by ring.
    apply add_real; auto.
    - apply L; try lia; [cbn; lra|]. rewrite Rabs_left1; lra.
    - replace (- (1 / 2) + rs I) with (rs I - 1 / 2) by ring.
      rewrite (rnd_id _ rs_minus_half), Rabs_pos_eq; lra. }
  assert (Ez : Zfloor (rs I - 1 / 2) = p).
  { apply Zfloor_imp. rewrite plus_IZR. lra. }
  unfold ut_p. rewrite (floor_real _ _ R5); rewrite Ez; [reflexivity|].
  split; [lra|]. apply IZR_lt. pose proof p_bound. change (Z.of_N usize_mod) with 18446744073709551616%Z. lia.
Qed.

End Analysis.

Lemma ut_p_exact : forall p i : N, (p * (p + 1) <= 2 * i)%N -> (2 * i < (p + 1) * (p + 2))%N ->
  (i < 2 ^ 53)%N -> ut_p i = p.
Proof.
  intros p i H1 H2 H3. rewrite <- (N2Z.id i), <- (N2Z.id p) at 1.
  assert (E : ut_p (Z.to_N (Z.of_N i)) = Z.to_N (Z.of_N p)); [|now rewrite E, N2Z.id].
  change (2 ^ 53)%N with 9007199254740992%N in H3.
  assert (Hev : exists k, ((p + 1) * (p + 2) = 2 * k)%N).
  { destruct (N.Even_or_Odd p) as [[k ->]|[k ->]].
    - exists ((2 * k + 1) * (k + 1))%N. lia.
    - exists ((k + 1) * (2 * k + 3))%N. lia. }
  destruct Hev as (k & Hk). apply ut_p_Z; nia.
Qed.
