(** * Proof of C04: the floating point index computation. *)

From Coq Require Import ZifyBool ZifyNat ZifyN SpecFloat.
From Verif Require Import Machine MachineFacts F64 Layouts Spec LayoutFacts LayoutProofs F64Facts.
Local Open Scope N_scope.

Lemma ut_p_tri : forall p i, tri p <= i -> i < tri (p + 1) -> i < 2 ^ 53 -> ut_p i = p.
Proof.
  intros p i H1 H2 H3. pose proof (tri_double p). pose proof (tri_double (p + 1)).
  apply ut_p_exact; auto; [lia|]. replace (p + 2) with (p + 1 + 1) by lia. lia.
Qed.

(** What convert_1d_2d computes from [p]. *)
Lemma convert_with_p : forall m n i p, small (UpperTriangular n) -> ut_p i = p ->
  p < n -> tri p <= i -> i < entry_count (UpperTriangular n) ->
  convert_1d_2d m (UpperTriangular n) i = Ok (n - 1 - p, n - 1 - p + i - tri p).
Proof.
  intros m n i p Hs E Hp Ht Hi. cbn [convert_1d_2d]. unfold upper_triangular_1d_2d. rewrite E.
  cbn [small entry_count] in *. fold (tri n) in Hi.
  pose proof (tri_double n) as Dn. pose proof (tri_double p) as Dp. rewrite usize_mod_val in Hs.
  rewrite !usub_ok by lia. cbn [bind]. rewrite !usub_ok by lia. cbn [bind].
  rewrite uadd_ok by (rewrite usize_mod_val; nia). cbn [bind].
  rewrite (uadd_ok m p 1) by (rewrite usize_mod_val; nia). cbn [bind].
  rewrite umul_ok by (rewrite usize_mod_val; nia). cbn [bind].
  unfold udiv. cbn [N.eqb bind]. fold (tri p). rewrite usub_ok by lia. reflexivity.
Qed.

Lemma c04_index : forall m n i, small (UpperTriangular n) -> i < n * (n + 1) / 2 -> i < 2 ^ 53 ->
  exists row col, convert_1d_2d m (UpperTriangular n) i = Ok (row, col) /\ row <= col /\ col < n /\
    convert_2d_1d m (UpperTriangular n) row col = Ok i.
Proof.
  intros m n i Hs Hi H53. destruct (tri_find i) as (p & H1 & H2).
  assert (E := ut_p_tri p i H1 H2 H53).
  assert (Hp : p < n).
  { destruct (N.lt_ge_cases p n); auto. pose proof (tri_mono n p). unfold tri in *. lia. }
  pose proof (tri_succ p) as Hsucc.
  exists (n - 1 - p), (n - 1 - p + i - tri p). split; [now apply convert_with_p|].
  assert (Hst : stored (UpperTriangular n) (n - 1 - p, n - 1 - p + i - tri p)).
  { unfold stored, in_range. cbn [fst snd dim upper_triangular_like]. lia. }
  destruct Hst as [[A B] C]. cbn [fst snd dim] in A, B, C. specialize (C eq_refl).
  splits; auto. rewrite convert_2d_1d_ok; auto.
  - cbn [idx]. f_equal. replace (n - 1 - (n - 1 - p)) with p by lia. lia.
  - unfold stored, in_range. cbn [fst snd dim]. auto.
Qed.

Lemma fits_2_27 : forall n, n < 2 ^ 27 -> small (UpperTriangular n) /\ n * (n + 1) / 2 < 2 ^ 53.
Proof.
  intros n H. change (2 ^ 27) with 134217728 in H. pose proof (tri_double n) as D. unfold tri in D.
  change (2 ^ 53) with 9007199254740992. cbn [small]. rewrite usize_mod_val. split; nia.
Qed.

Lemma c04 : forall m n, n < 2 ^ 27 ->
  bijective (n * (n + 1) / 2) (fun p => fst p <= snd p /\ snd p < n)
    (convert_1d_2d m (UpperTriangular n))
    (fun p => convert_2d_1d m (UpperTriangular n) (fst p) (snd p)).
Proof.
  intros m n Hn. destruct (fits_2_27 n Hn) as [Hs Hb]. split.
  - intros i Hi. destruct (c04_index m n i Hs Hi) as (r & c & E & H1 & H2 & H3); [lia|].
    exists (r, c). cbn [fst snd]. auto.
  - intros [r c] [H1 H2]. cbn [fst snd] in *.
    assert (Hst : stored (UpperTriangular n) (r, c)).
    { unfold stored, in_range. cbn [fst snd dim]. lia. }
    exists (idx (UpperTriangular n) r c). split; [now apply convert_2d_1d_ok|].
    pose proof (idx_bound _ _ _ Hst) as Hi. split; [exact Hi|].
    destruct (c04_index m n (idx (UpperTriangular n) r c) Hs Hi) as (r' & c' & E & H3 & H4 & H5); [cbn [entry_count] in Hi; lia|].
    rewrite E. f_equal. apply (idx_inj (UpperTriangular n)); auto.
    + unfold stored, in_range. cbn [fst snd dim]. lia.
    + rewrite convert_2d_1d_ok in H5; auto; [now injection H5|].
      unfold stored, in_range. cbn [fst snd dim]. lia.
Qed.

(** The last entry of the longest row shorter than 2^27 + 1: the square root rounds
    up to the next row. *)
Definition bad_index : N := 2 ^ 53 + 2 ^ 26 - 1.

Lemma bad_p : ut_p bad_index = 2 ^ 27.
Proof. vm_compute. reflexivity. Qed.

Lemma c04_large : forall m n, 2 ^ 27 <= n -> fits (UpperTriangular n) ->
  exists row col, row <= col /\ col < n /\
    convert_2d_1d m (UpperTriangular n) row col = Ok bad_index /\
    convert_1d_2d m (UpperTriangular n) bad_index <> Ok (row, col).
Proof.
  intros m n Hn Hf. pose proof (fits_small _ Hf) as Hs. change (2 ^ 27) with 134217728 in Hn.
  assert (Hst : stored (UpperTriangular n) (n - 134217728, n - 1)).
  { unfold stored, in_range. cbn [fst snd dim]. lia. }
  exists (n - 134217728), (n - 1). split; [lia|]. split; [lia|]. split.
  - rewrite (convert_2d_1d_ok _ _ _ _ Hs Hst). cbn [idx]. f_equal.
    replace (n - 1 - (n - 134217728)) with 134217727 by lia. vm_compute. reflexivity.
  - cbn [convert_1d_2d]. unfold upper_triangular_1d_2d. rewrite bad_p. cbv zeta.
    change (2 ^ 27) with 134217728. rewrite usub_ok by lia. cbn [bind].
    cbn [small] in Hs. rewrite usize_mod_val in Hs. assert (n < 4294967296) by nia.
    unfold usub at 1. destruct (N.leb_spec 134217728 (n - 1)).
    + cbn [bind]. intros E.
      do 6 (apply bind_ok in E; destruct E as (? & _ & E)).
      injection E as E _. lia.
    + intros E. apply bind_ok in E. destruct E as (r & Er & E).
      do 6 (apply bind_ok in E; destruct E as (? & _ & E)). injection E as E _.
      assert (n = 134217728) by lia. subst n. rewrite usize_mod_val in Er.
      destruct m; cbn [overflow] in Er; [discriminate Er|].
      assert (Er' : (18446744073709551616 + (134217728 - 1) - 134217728) mod 18446744073709551616 = r) by congruence.
      vm_compute in Er'. lia.
Qed.

Lemma c04_exact : forall m n, fits (UpperTriangular n) ->
  (bijective (n * (n + 1) / 2) (fun p => fst p <= snd p /\ snd p < n)
     (convert_1d_2d m (UpperTriangular n))
     (fun p => convert_2d_1d m (UpperTriangular n) (fst p) (snd p)) <-> n < 2 ^ 27).
Proof.
  intros m n Hf. split; [|apply c04].
  intros [_ H]. destruct (N.lt_ge_cases n (2 ^ 27)) as [|Hn]; auto. exfalso.
  destruct (c04_large m n Hn Hf) as (r & c & H1 & H2 & H3 & H4).
  destruct (H (r, c)) as (i & E & _ & E2); [cbn; auto|]. cbn [fst snd] in *. congruence.
Qed.

Lemma c04_cast :
  f64_floor_as_usize S754_nan = 0%N /\ (forall s, f64_floor_as_usize (S754_zero s) = 0%N) /\
  f64_floor_as_usize (S754_infinity true) = 0%N /\ f64_floor_as_usize (S754_infinity false) = (2 ^ 64 - 1)%N /\
  forall (s : bool) (m : positive) (e z : Z),
    (let v := if s then Z.neg m else Z.pos m in
     (0 <= e /\ z = v * 2 ^ e \/ e < 0 /\ z * 2 ^ (- e) <= v < (z + 1) * 2 ^ (- e))%Z) ->
    Z.of_N (f64_floor_as_usize (S754_finite s m e)) = Z.max 0 (Z.min z (2 ^ 64 - 1)).
Proof.
  split; [reflexivity|]. split; [reflexivity|]. split; [reflexivity|]. split; [reflexivity|].
  intros s m e z H. cbv zeta in H. cbn [f64_floor_as_usize].
  assert (E : floor_finite s m e = z).
  { unfold floor_finite. replace (cond_Zopp s (Z.pos m)) with (if s then Z.neg m else Z.pos m) by (destruct s; reflexivity).
    set (v := if s then Z.neg m else Z.pos m) in *. clearbody v. destruct H as [[He ->]|[He H]].
    - destruct (Z.leb_spec 0 e); [reflexivity|lia].
    - destruct (Z.leb_spec 0 e); [lia|]. assert (0 < 2 ^ (- e))%Z by (apply Z.pow_pos_nonneg; lia).
      symmetry. apply Z.div_unique with (r := (v - z * 2 ^ (- e))%Z); lia. }
  rewrite E. unfold saturate_usize. change (Z.of_N usize_mod) with 18446744073709551616%Z.
  change (2 ^ 64 - 1)%Z with 18446744073709551615%Z. change (usize_mod - 1)%N with 18446744073709551615%N.
  destruct (Z.ltb_spec z 0); [lia|]. destruct (Z.leb_spec 18446744073709551616 z); lia.
Qed.
