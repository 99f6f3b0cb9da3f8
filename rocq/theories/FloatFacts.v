(** * Facts about the executable specification of IEEE-754 arithmetic
    (Coq.Floats.SpecFloat), proved without real numbers: results are in canonical form, the
    operations commute, one is neutral. *)

From Coq Require Import ZArith Lia Bool.
From Coq Require Import Floats.SpecFloat.
Local Open Scope Z_scope.

Section FloatFacts.
Variables prec emax : Z.
Hypothesis prec_pos : 1 < prec.
Hypothesis prec_emax : prec < emax.

Notation fexp := (fexp prec emax).
Notation valid := (valid_binary prec emax).

Lemma digits_pos : forall m, 0 < m -> 0 < Zdigits2 m.
Proof. intros [|p|p] H; cbn; lia. Qed.

Lemma digits_zero : forall m, 0 <= m -> Zdigits2 m <= 0 -> m = 0.
Proof. intros [|p|p] H1 H2; cbn in *; auto; lia. Qed.

Lemma shr_1_digits : forall r, 0 <= shr_m r ->
  0 <= shr_m (shr_1 r) /\ Zdigits2 (shr_m (shr_1 r)) = Z.max 0 (Zdigits2 (shr_m r) - 1).
Proof.
  intros [m r s] H. destruct m as [|[p|p|]|p]; cbn [shr_1 shr_m] in *; try lia;
    (split; [lia|]); cbn [Zdigits2 digits2_pos]; rewrite ?Pos2Z.inj_succ; lia.
Qed.

Lemma iter_digits : forall p r, 0 <= shr_m r ->
  0 <= shr_m (iter_pos shr_1 p r) /\ Zdigits2 (shr_m (iter_pos shr_1 p r)) = Z.max 0 (Zdigits2 (shr_m r) - Zpos p).
Proof.
  induction p as [p IH|p IH|]; intros r H; cbn [iter_pos].
  - destruct (shr_1_digits r H) as [H1 D1]. destruct (IH _ H1) as [H2 D2]. destruct (IH _ H2) as [H3 D3].
    split; auto. rewrite D3, D2, D1. lia.
  - destruct (IH _ H) as [H2 D2]. destruct (IH _ H2) as [H3 D3]. split; auto. rewrite D3, D2. lia.
  - now apply shr_1_digits.
Qed.

Lemma shr_digits : forall r e n, 0 <= shr_m r -> 0 <= n ->
  0 <= shr_m (fst (shr r e n)) /\ Zdigits2 (shr_m (fst (shr r e n))) = Z.max 0 (Zdigits2 (shr_m r) - n) /\
  snd (shr r e n) = e + n.
Proof.
  intros r e [|p|p] Hr Hn; cbn [shr fst snd]; [|destruct (iter_digits p r Hr); auto|lia].
  repeat split; auto; [|lia]. destruct (shr_m r); cbn [Zdigits2]; lia.
Qed.

Lemma record_m : forall m l, shr_m (shr_record_of_loc m l) = m.
Proof. intros m [|[]]; reflexivity. Qed.

Lemma round_cases : forall m l, round_nearest_even m l = m \/ round_nearest_even m l = m + 1.
Proof. intros m [|[]]; cbn; auto. destruct (Z.even m); auto. Qed.

Lemma digits_mono : forall m, 0 < m -> Zdigits2 m <= Zdigits2 (m + 1).
Proof.
  assert (H : forall p, (digits2_pos p <= digits2_pos (p + 1))%positive).
  { induction p as [p IH|p IH|]; cbn [Pos.add digits2_pos]; try lia. rewrite Pos.add_1_r in IH. lia. }
  intros [|p|p] Hm; try lia. cbn [Zdigits2 Z.add]. specialize (H p). lia.
Qed.

(** Rounding gives a canonical number if the exponent was not too large. *)
Lemma aux_valid : forall s m e l, 0 <= m -> e <= fexp (Zdigits2 m + e) ->
  valid (binary_round_aux prec emax s m e l) = true.
Proof.
  intros s m e l Hm He. unfold binary_round_aux, shr_fexp.
  destruct (shr_digits (shr_record_of_loc m l) e (fexp (Zdigits2 m + e) - e)) as (H1 & D1 & E1);
    [now rewrite record_m|lia|].
  destruct (shr _ e _) as [r1 e1]. cbn [fst snd] in *. rewrite record_m in D1.
  set (m1 := round_nearest_even (shr_m r1) (loc_of_shr_record r1)).
  assert (He1 : e1 = fexp (Zdigits2 m + e)) by lia. clear E1.
  assert (Hm1 : 0 <= m1) by (destruct (round_cases (shr_m r1) (loc_of_shr_record r1)); lia).
  assert (Hz : m1 = 0 \/ e1 <= fexp (Zdigits2 m1 + e1)).
  { destruct (Z.eq_dec m1 0) as [|Hnz]; [now left|]. right.
    destruct (Z.eq_dec (shr_m r1) 0) as [Z0|NZ].
    - assert (m1 = 1) by (destruct (round_cases (shr_m r1) (loc_of_shr_record r1)); lia).
      rewrite Z0 in D1. cbn [Zdigits2] in D1. unfold SpecFloat.fexp in *. lia.
    - assert (Zdigits2 (shr_m r1) <= Zdigits2 m1).
      { destruct (round_cases (shr_m r1) (loc_of_shr_record r1)) as [E|E]; fold m1 in E; rewrite E; [lia|].
        apply digits_mono. lia. }
      pose proof (digits_pos (shr_m r1)). unfold SpecFloat.fexp in *. lia. }
  destruct Hz as [Hz|Hz].
  { rewrite Hz. cbn [Zdigits2 shr_record_of_loc].
    assert (X : forall n, shr_m (fst (shr {| shr_m := 0; shr_r := false; shr_s := false |} e1 n)) = 0).
    { intros [|p|p]; cbn [shr fst]; auto.
      destruct (iter_digits p {| shr_m := 0; shr_r := false; shr_s := false |}) as [A B]; [cbn; lia|].
      apply digits_zero; auto. rewrite B. cbn. lia. }
    specialize (X (fexp (0 + e1) - e1)). destruct (shr _ e1 _) as [r2 e2]. cbn [fst] in X. now rewrite X. }
  destruct (shr_digits (shr_record_of_loc m1 loc_Exact) e1 (fexp (Zdigits2 m1 + e1) - e1)) as (H2 & D2 & E2);
    [now rewrite record_m|lia|].
  destruct (shr _ e1 _) as [r2 e2]. cbn [fst snd] in *. rewrite record_m in D2.
  destruct (shr_m r2) as [|m2|m2]; auto.
  destruct (Zle_bool e2 (emax - prec)) eqn:Eb; auto. cbn [valid_binary]. unfold bounded. rewrite Eb, andb_true_r.
  unfold canonical_mantissa. apply Zeq_is_eq_bool. cbn [Zdigits2] in D2. unfold SpecFloat.fexp in *. lia.
Qed.

Lemma digits_shift : forall d m, Zpos (digits2_pos (shift_pos d m)) = Zpos (digits2_pos m) + Zpos d.
Proof.
  intros d m. rewrite shift_pos_nat, <- (positive_nat_Z d). generalize (Pos.to_nat d). intros n. clear d.
  induction n as [|n IH]; [cbn; lia|]. cbn [shift_nat nat_rect digits2_pos] in *.
  change (nat_rect _ _ _ n) with (shift_nat n m). rewrite Pos2Z.inj_succ, IH. lia.
Qed.

Lemma round_valid : forall s m e, valid (binary_round prec emax s m e) = true.
Proof.
  intros s m e. unfold binary_round, shl_align.
  destruct (fexp (Z.pos (digits2_pos m) + e) - e) as [|d|d] eqn:E; apply aux_valid; try lia; cbn [Zdigits2]; try lia.
  rewrite digits_shift. replace (Z.pos (digits2_pos m) + Z.pos d + fexp (Z.pos (digits2_pos m) + e))
    with (Z.pos (digits2_pos m) + e) by lia. lia.
Qed.

Lemma normalize_valid : forall m e z, valid (binary_normalize prec emax m e z) = true.
Proof. intros [|p|p] e z; cbn [binary_normalize]; auto using round_valid. Qed.

Lemma add_valid : forall x y, valid x = true -> valid y = true -> valid (SFadd prec emax x y) = true.
Proof.
  intros [[]|[]| |s m e] [[]|[]| |s' m' e'] Hx Hy; cbn [SFadd Bool.eqb]; auto. apply normalize_valid.
Qed.

Lemma sub_valid : forall x y, valid x = true -> valid y = true -> valid (SFsub prec emax x y) = true.
Proof.
  intros [[]|[]| |s m e] [[]|[]| |s' m' e'] Hx Hy; cbn [SFsub Bool.eqb negb]; auto. apply normalize_valid.
Qed.

Lemma digits_mul : forall m n, (digits2_pos m + digits2_pos n <= digits2_pos (m * n) + 1)%positive.
Proof.
  assert (H : forall p, 2 ^ (Zpos (digits2_pos p) - 1) <= Zpos p < 2 ^ Zpos (digits2_pos p)).
  { induction p as [p IH|p IH|]; cbn [digits2_pos]; [| |cbn; lia];
      rewrite Pos2Z.inj_succ; (replace (Z.succ (Zpos (digits2_pos p)) - 1) with (Z.succ (Zpos (digits2_pos p) - 1)) by lia);
      rewrite !Z.pow_succ_r by lia; lia. }
  intros m n. pose proof (H m) as [A _]. pose proof (H n) as [B _]. pose proof (H (m * n)%positive) as [_ C].
  assert (D : 2 ^ (Zpos (digits2_pos m) - 1 + (Zpos (digits2_pos n) - 1)) < 2 ^ Zpos (digits2_pos (m * n))).
  { rewrite Z.pow_add_r by lia. eapply Z.le_lt_trans; [|exact C]. rewrite Pos2Z.inj_mul.
    apply Z.mul_le_mono_nonneg; auto; apply Z.pow_nonneg; lia. }
  apply Z.pow_lt_mono_r_iff in D; lia.
Qed.

Lemma mul_valid : forall x y, valid x = true -> valid y = true -> valid (SFmul prec emax x y) = true.
Proof.
  intros [sx|sx| |sx m e] [sy|sy| |sy m' e'] Hx Hy; cbn [SFmul]; auto.
  cbn [valid_binary] in *. unfold bounded, canonical_mantissa in *.
  apply andb_true_iff in Hx. destruct Hx as [Hx _]. apply andb_true_iff in Hy. destruct Hy as [Hy _].
  apply Zeq_is_eq_bool in Hx. apply Zeq_is_eq_bool in Hy.
  apply aux_valid; [lia|]. cbn [Zdigits2]. pose proof (digits_mul m m'). unfold SpecFloat.fexp, emin in *. lia.
Qed.

(** ** Commutativity *)

Lemma add_comm : forall x y, SFadd prec emax x y = SFadd prec emax y x.
Proof.
  intros [[]|[]| |s m e] [[]|[]| |s' m' e']; cbn [SFadd Bool.eqb]; auto. rewrite Z.min_comm. now rewrite Z.add_comm.
Qed.

Lemma mul_comm : forall x y, SFmul prec emax x y = SFmul prec emax y x.
Proof.
  intros [[]|[]| |s m e] [[]|[]| |s' m' e']; cbn [SFmul xorb]; auto. now rewrite xorb_comm, Pos.mul_comm, Z.add_comm.
Qed.

(** ** Zero *)

Lemma add_zero : forall x, x <> S754_zero true -> SFadd prec emax x (S754_zero false) = x.
Proof. intros [[]|[]| |s m e] H; cbn; congruence. Qed.

(** A number that is not too small is not rounded to zero. *)
Lemma shr_positive : forall m e l, 0 < m -> e <= fexp (Zdigits2 m + e) -> emin prec emax <= e ->
  0 < shr_m (fst (shr_fexp prec emax m e l)) /\ emin prec emax <= snd (shr_fexp prec emax m e l) /\
  snd (shr_fexp prec emax m e l) = fexp (Zdigits2 m + e) /\
  Zdigits2 (shr_m (fst (shr_fexp prec emax m e l))) + snd (shr_fexp prec emax m e l) = Zdigits2 m + e.
Proof.
  intros m e l Hm He Hl. unfold shr_fexp. pose proof (digits_pos m Hm) as Dm.
  destruct (shr_digits (shr_record_of_loc m l) e (fexp (Zdigits2 m + e) - e)) as (H1 & D1 & E1);
    [rewrite record_m; lia|lia|]. rewrite record_m in D1.
  destruct (shr _ e _) as [r1 e1]. cbn [fst snd] in *.
  assert (P : 0 < Zdigits2 (shr_m r1)) by (unfold SpecFloat.fexp in *; lia).
  repeat split; try lia. destruct (shr_m r1) as [|p|p]; cbn [Zdigits2] in P; lia.
Qed.

Lemma aux_nonzero : forall s m e l s', 0 < m -> e <= fexp (Zdigits2 m + e) -> emin prec emax <= e ->
  binary_round_aux prec emax s m e l <> S754_zero s'.
Proof.
  intros s m e l s' Hm He Hl. unfold binary_round_aux.
  destruct (shr_positive m e l Hm He Hl) as (P1 & L1 & E1 & D1). destruct (shr_fexp _ _ m e l) as [r1 e1]. cbn [fst snd] in *.
  set (m1 := round_nearest_even (shr_m r1) (loc_of_shr_record r1)).
  assert (Hm1 : 0 < m1 /\ Zdigits2 (shr_m r1) <= Zdigits2 m1).
  { destruct (round_cases (shr_m r1) (loc_of_shr_record r1)) as [E|E]; fold m1 in E; rewrite E; [lia|].
    pose proof (digits_mono (shr_m r1)). lia. }
  destruct (shr_positive m1 e1 loc_Exact) as (P2 & _); [lia| |lia|].
  { unfold SpecFloat.fexp in *. lia. }
  destruct (shr_fexp _ _ m1 e1 loc_Exact) as [r2 e2]. cbn [fst snd] in *.
  destruct (shr_m r2); try lia. destruct (Zle_bool _ _); discriminate.
Qed.

Lemma round_nonzero : forall s m e s', emin prec emax <= e -> binary_round prec emax s m e <> S754_zero s'.
Proof.
  intros s m e s' H. unfold binary_round, shl_align.
  destruct (fexp (Z.pos (digits2_pos m) + e) - e) as [|d|d] eqn:E; apply aux_nonzero; try lia; cbn [Zdigits2]; try lia.
  - rewrite digits_shift. replace (Z.pos (digits2_pos m) + Z.pos d + fexp (Z.pos (digits2_pos m) + e))
      with (Z.pos (digits2_pos m) + e) by lia. lia.
  - unfold SpecFloat.fexp. lia.
Qed.

Lemma valid_exponent : forall s m e, valid (S754_finite s m e) = true -> emin prec emax <= e.
Proof.
  intros s m e H. cbn [valid_binary] in H. unfold bounded, canonical_mantissa in H. apply andb_true_iff in H.
  destruct H as [H _]. apply Zeq_is_eq_bool in H. unfold SpecFloat.fexp in H. lia.
Qed.

(** Sums that start with plus zero are never minus zero. *)
Lemma add_not_minus : forall x y, valid x = true -> valid y = true -> x <> S754_zero true ->
  SFadd prec emax x y <> S754_zero true.
Proof.
  intros [[]|[]| |s m e] [[]|[]| |s' m' e'] Hx Hy H; cbn [SFadd Bool.eqb]; try congruence.
  pose proof (valid_exponent _ _ _ Hx). pose proof (valid_exponent _ _ _ Hy).
  destruct (cond_Zopp s _ + cond_Zopp s' _) as [|p|p]; cbn [binary_normalize]; [discriminate| |];
    apply round_nonzero; lia.
Qed.

(** ** One *)

Definition one : spec_float := S754_finite false (shift_pos (Z.to_pos (prec - 1)) 1) (1 - prec).

Lemma iter_pos_nat : forall A (f : A -> A) p x, iter_pos f p x = Nat.iter (Pos.to_nat p) f x.
Proof.
  intros A f p.
  assert (X : forall n x, Nat.iter n f (f x) = f (Nat.iter n f x)) by (induction n as [|n IH]; intros; [reflexivity|]; change (Nat.iter (S n) f ?y) with (f (Nat.iter n f y)); now rewrite IH).
  assert (Y : forall n k x, Nat.iter (n + k) f x = Nat.iter n f (Nat.iter k f x)) by (induction n as [|n IH]; intros; [reflexivity|]; change (Nat.iter (S n + k) f x) with (f (Nat.iter (n + k) f x)); change (Nat.iter (S n) f ?y) with (f (Nat.iter n f y)); now rewrite IH).
  induction p as [p IH|p IH|]; intros x; cbn [iter_pos]; [| |reflexivity]; rewrite !IH, <- ?Y.
  - rewrite X. change (f (Nat.iter ?n f x)) with (Nat.iter (S n) f x). f_equal. lia.
  - f_equal. lia.
Qed.

Lemma unshift : forall n m, Nat.iter n shr_1 {| shr_m := Zpos (shift_nat n m); shr_r := false; shr_s := false |} =
  {| shr_m := Zpos m; shr_r := false; shr_s := false |}.
Proof.
  assert (X : forall n (x : shr_record), Nat.iter n shr_1 (shr_1 x) = shr_1 (Nat.iter n shr_1 x)) by (induction n as [|n IH]; intros; [reflexivity|]; change (Nat.iter (S n) shr_1 ?y) with (shr_1 (Nat.iter n shr_1 y)); now rewrite IH).
  induction n as [|n IH]; intros m; [reflexivity|].
  change (Nat.iter (S n) shr_1 ?x) with (shr_1 (Nat.iter n shr_1 x)). rewrite <- X. cbn [shift_nat nat_rect shr_1 orb].
  apply IH.
Qed.

Lemma shift_mul : forall n m, Pos.mul (shift_nat n 1) m = shift_nat n m.
Proof. induction n as [|n IH]; intros m; [reflexivity|]. cbn [shift_nat nat_rect Pos.mul]. f_equal. apply IH. Qed.

Lemma mul_one : forall x, valid x = true -> SFmul prec emax one x = x.
Proof.
  intros [[]|[]| |s m e] H; try reflexivity. unfold one. cbn [SFmul xorb].
  cbn [valid_binary] in H. unfold bounded, canonical_mantissa in H. apply andb_true_iff in H. destruct H as [H Hb].
  apply Zeq_is_eq_bool in H. set (p := Z.to_pos (prec - 1)). assert (Hp : Zpos p = prec - 1) by (unfold p; lia).
  assert (Em : (shift_pos p 1 * m)%positive = shift_pos p m) by (rewrite !shift_pos_nat; apply shift_mul).
  rewrite Em. unfold binary_round_aux, shr_fexp. cbn [Zdigits2 shr_record_of_loc]. rewrite digits_shift.
  replace (Z.pos (digits2_pos m) + Z.pos p + (1 - prec + e)) with (Z.pos (digits2_pos m) + e) by lia. rewrite H.
  replace (e - (1 - prec + e)) with (Zpos p) by lia. cbn [shr]. rewrite iter_pos_nat, shift_pos_nat, unshift.
  cbn [shr_m loc_of_shr_record round_nearest_even Zdigits2].
  replace (1 - prec + e + Z.pos p) with e by lia. rewrite H, Z.sub_diag. cbn [shr shr_m xorb]. rewrite Hb. now destruct s.
Qed.

Lemma one_valid : valid one = true.
Proof.
  cbn [valid_binary one]. unfold bounded, canonical_mantissa. apply andb_true_iff.
  rewrite digits_shift. split; [apply Zeq_is_eq_bool|apply Z.leb_le; lia].
  unfold SpecFloat.fexp, emin. cbn [digits2_pos]. lia.
Qed.

End FloatFacts.
