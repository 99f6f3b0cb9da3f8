(** * The outcome of every block request on a dense matrix, empty blocks included. *)

From Coq Require Import ZifyBool ZifyNat ZifyN.
From Verif Require Import Machine MachineFacts Layouts Memory Matrix Spec MatrixSpec.
From Verif Require Import LayoutFacts MemoryFacts AccessFacts AccessProofs BlockProofs.
Local Open Scope N_scope.

Section BlockExact.
Context {T : Type}.
Notation heap := (@heap T).

Lemma ptr_add_ub : forall p n, r_len (p_region p) < p_off p + n -> ptr_add p n = UB.
Proof.
  intros p n H. unfold ptr_add, ptr_offset.
  replace ((0 <=? Z.of_N (p_off p) + Z.of_N n)%Z && (Z.of_N (p_off p) + Z.of_N n <=? Z.of_N (r_len (p_region p)))%Z)
    with false by lia. reflexivity.
Qed.

(** The part before the pointer step never overflows for requests inside. *)
Lemma dense_corner : forall (h : heap) m b tl d, base_valid h b -> dense_matrix (bm_layout b) = true ->
  fst (dim (bm_layout b)) < usize_mod -> snd (dim (bm_layout b)) < usize_mod ->
  inside (dim (bm_layout b)) tl d ->
  convert_2d_raw m (bm_layout b) (fst tl) (snd tl) = Ok (cell (bm_layout b) tl).
Proof.
  intros h m b [t0 t1] [a c] (Hs & Hsm & Hc) Hl H0 H1 [Hi0 Hi1]. cbn [fst snd] in *.
  destruct Hs as [_ Hlen]. rewrite isize_max_val in Hlen.
  destruct (bm_layout b) as [[A B] | [A B] | n | n | e s | e s | n s | n s | n]; try discriminate Hl;
    cbn [dim fst snd convert_2d_raw cell] in *.
  - assert (HAB : A * B <= r_len (c_region (bm_data b)) \/ A = 0 \/ B = 0).
    { destruct (N.eq_dec A 0); auto. destruct (N.eq_dec B 0); auto. left.
      assert (HL : stored (RowMajor (A, B)) (A - 1, B - 1)) by (split; [split; cbn; lia | discriminate]).
      apply Hc in HL. cbn in HL. nia. }
    assert (t0 * B + t1 < usize_mod).
    { rewrite usize_mod_val in *. destruct HAB as [HAB|[->| ->]]; nia. }
    unfold row_major_2d_1d. cbn [fst snd]. rewrite umul_ok by lia. cbn [bind]. rewrite uadd_ok by lia.
    cbn. f_equal. lia.
  - assert (HAB : A * B <= r_len (c_region (bm_data b)) \/ A = 0 \/ B = 0).
    { destruct (N.eq_dec A 0); auto. destruct (N.eq_dec B 0); auto. left.
      assert (HL : stored (ColumnMajor (A, B)) (A - 1, B - 1)) by (split; [split; cbn; lia | discriminate]).
      apply Hc in HL. cbn in HL. nia. }
    assert (t1 * A + t0 < usize_mod).
    { rewrite usize_mod_val in *. destruct HAB as [HAB|[->| ->]]; nia. }
    unfold column_major_2d_1d. cbn [fst snd]. rewrite umul_ok by lia. cbn [bind]. rewrite uadd_ok by lia.
    cbn. f_equal. lia.
Qed.


(** Up to the pointer step. *)
Lemma block_to_pointer : forall (h : heap) m mut b tl d, base_valid h b -> dense_matrix (bm_layout b) = true ->
  fst (dim (bm_layout b)) < usize_mod -> snd (dim (bm_layout b)) < usize_mod ->
  inside (dim (bm_layout b)) tl d ->
  block m mut b tl d =
  (p <- ptr_add (get_pointer b) (cell (bm_layout b) tl) ;;
   from_pointer_strided m mut (order_of (bm_layout b)) p d (told_stride (bm_layout b))).
Proof.
  intros h m mut b tl d Hv Hl H0 H1 Hi. pose proof (dense_chain _ Hl) as Hc. unfold block. rewrite chain_order by auto.
  pose proof Hi as [Hi0 Hi1]. rewrite uadd_ok by lia. cbn [bind]. rewrite uadd_ok by lia. cbn [bind].
  replace ((fst tl + fst d <=? fst (dim (bm_layout b))) && (snd tl + snd d <=? snd (dim (bm_layout b))))
    with true by lia. cbn [assert_ bind].
  erewrite dense_corner by eauto. cbn [bind]. rewrite chain_stride by auto. reflexivity.
Qed.

Lemma far_corner_ub : forall (h : heap) m mut b tl d, base_valid h b -> dense_matrix (bm_layout b) = true ->
  fst (dim (bm_layout b)) < usize_mod -> snd (dim (bm_layout b)) < usize_mod ->
  inside (dim (bm_layout b)) tl d -> r_len (c_region (bm_data b)) < cell (bm_layout b) tl ->
  block m mut b tl d = UB.
Proof.
  intros h m mut b tl d Hv Hl H0 H1 Hi Hf. erewrite block_to_pointer by eauto. rewrite ptr_add_ub; auto.
Qed.

(** With overflow checks. *)
Lemma c20_exact : forall (h : heap) mut b tl d, base_valid h b -> dense_matrix (bm_layout b) = true ->
  fst (dim (bm_layout b)) < usize_mod -> snd (dim (bm_layout b)) < usize_mod ->
  (returns (block Checked mut b tl d) <-> nonempty d /\ inside (dim (bm_layout b)) tl d) /\
  (block Checked mut b tl d = UB <->
     ~ nonempty d /\ inside (dim (bm_layout b)) tl d /\ r_len (c_region (bm_data b)) < cell (bm_layout b) tl) /\
  (panics (block Checked mut b tl d) <->
     ~ inside (dim (bm_layout b)) tl d \/
     (~ nonempty d /\ cell (bm_layout b) tl <= r_len (c_region (bm_data b)))).
Proof.
  intros h mut b tl d Hv Hl H0 H1. destruct (c20_checked h mut b tl d Hv Hl) as [HR HP].
  assert (E1 : nonempty d /\ inside (dim (bm_layout b)) tl d -> exists v, block Checked mut b tl d = Ok v) by apply HR.
  assert (E2 : ~ nonempty d /\ inside (dim (bm_layout b)) tl d /\ r_len (c_region (bm_data b)) < cell (bm_layout b) tl ->
               block Checked mut b tl d = UB).
  { intros (_ & Hi & Hf). eapply far_corner_ub; eauto. }
  assert (E3 : ~ inside (dim (bm_layout b)) tl d \/ (~ nonempty d /\ cell (bm_layout b) tl <= r_len (c_region (bm_data b))) ->
               block Checked mut b tl d = Panic).
  { intros [Hn|[Hn Hc]]; [|apply HP; tauto]. eapply block_outside_panics; eauto. now apply chain_order, dense_chain. }
  set (P1 := nonempty d /\ inside (dim (bm_layout b)) tl d) in *.
  set (P2 := ~ nonempty d /\ inside (dim (bm_layout b)) tl d /\ r_len (c_region (bm_data b)) < cell (bm_layout b) tl) in *.
  set (P3 := ~ inside (dim (bm_layout b)) tl d \/ (~ nonempty d /\ cell (bm_layout b) tl <= r_len (c_region (bm_data b)))) in *.
  assert (C : P1 \/ P2 \/ P3).
  { unfold P1, P2, P3. destruct (nonempty_dec d), (inside_dec (dim (bm_layout b)) tl d),
      (N.le_gt_cases (cell (bm_layout b) tl) (r_len (c_region (bm_data b)))); tauto. }
  unfold returns, panics.
  destruct C as [C|[C|C]]; [destruct (E1 C) as (v & E)|rename E2 into E'; pose proof (E' C) as E|pose proof (E3 C) as E];
    rewrite E in *; splits; split; intros H; auto; try discriminate H; try (destruct H as (? & H); discriminate H); eauto;
    exfalso; try (apply E3 in H; discriminate H); try (apply E2 in H; discriminate H); try (apply E' in H; discriminate H);
    destruct (E1 H) as (? & H'); discriminate H'.
Qed.

(** Without overflow checks. *)
Lemma uadd_wrap : forall a b, uadd Wrapping a b = Ok ((a + b) mod usize_mod).
Proof. intros a b. unfold uadd. destruct (N.ltb_spec (a + b) usize_mod); auto. now rewrite N.mod_small. Qed.
Lemma umul_wrap : forall a b, umul Wrapping a b = Ok ((a * b) mod usize_mod).
Proof. intros a b. unfold umul. destruct (N.ltb_spec (a * b) usize_mod); auto. now rewrite N.mod_small. Qed.
Lemma pred_wrap : forall a, a < usize_mod -> usub Wrapping a 1 = Ok ((a + usize_mod - 1) mod usize_mod).
Proof.
  intros a Ha. unfold usub. destruct (N.leb_spec 1 a).
  - f_equal. apply N.mod_unique with (q := 1); rewrite usize_mod_val in *; lia.
  - cbn [overflow]. f_equal. f_equal. lia.
Qed.

Lemma strided_length_wrap : forall a b s0 s1, a < usize_mod -> b < usize_mod ->
  (r1 <- usub Wrapping a 1 ;; c1 <- usub Wrapping b 1 ;;
   raw <- strided_raw Wrapping (s0, s1) r1 c1 ;; uadd Wrapping raw 1) =
  Ok ((s0 * (a + usize_mod - 1) + s1 * (b + usize_mod - 1) + 1) mod usize_mod).
Proof.
  intros a b s0 s1 Ha Hb. assert (M0 : usize_mod <> 0) by (rewrite usize_mod_val; lia).
  rewrite !pred_wrap by auto. cbn [bind]. unfold strided_raw. cbn [fst snd]. rewrite !umul_wrap. cbn [bind].
  rewrite uadd_wrap. cbn [bind]. rewrite uadd_wrap. f_equal.
  rewrite !N.mul_mod_idemp_r by auto. rewrite N.add_mod_idemp_l by auto.
  rewrite <- N.add_assoc, N.add_mod_idemp_l by auto.
  rewrite (N.add_comm (s0 * _)), <- N.add_assoc, N.add_mod_idemp_l by auto. f_equal. lia.
Qed.

Lemma from_pointer_strided_wrap : forall mut o p a b s0 s1, a < usize_mod -> b < usize_mod ->
  from_pointer_strided Wrapping mut o p (a, b) (s0, s1) =
  (slice <- from_raw_parts p ((s0 * (a + usize_mod - 1) + s1 * (b + usize_mod - 1) + 1) mod usize_mod) ;;
   from_data Wrapping Dynamic Dynamic (slice_container mut slice) (strided_layout o (a, b) (s0, s1))).
Proof.
  intros mut o p a b s0 s1 Ha Hb. unfold from_pointer_strided. cbn [fst snd].
  pose proof (strided_length_wrap a b s0 s1 Ha Hb) as E.
  assert (C : forall r c, convert_2d_raw Wrapping (strided_layout o (a, b) (s0, s1)) r c = strided_raw Wrapping (s0, s1) r c)
    by now destruct o.
  destruct (usub Wrapping a 1) as [r1| |]; cbn [bind] in *; try discriminate E.
  destruct (usub Wrapping b 1) as [c1| |]; cbn [bind] in *; try discriminate E.
  rewrite C. destruct (strided_raw Wrapping (s0, s1) r1 c1) as [raw| |]; cbn [bind] in *; try discriminate E.
  rewrite E. reflexivity.
Qed.

(** The length computed for a block without entries, [lines] of [width] entries,
    in a matrix with lines of length [full]. *)
Lemma empty_length : forall lines width full, lines = 0 \/ width = 0 -> width <= full -> 1 <= full -> full < usize_mod ->
  full * (lines - 1) < usize_mod ->
  (full * (lines + usize_mod - 1) + 1 * (width + usize_mod - 1) + 1) mod usize_mod =
  if lines =? 0 then (if width =? full then 0 else usize_mod - (full - width)) else full * (lines - 1).
Proof.
  intros lines width full He Hw Hf Hm Hl. assert (M1 : 1 <= usize_mod) by (rewrite usize_mod_val; lia).
  generalize dependent usize_mod. intros M Hm Hl M1.
  destruct (N.eqb_spec lines 0) as [->|H0].
  - destruct (N.eqb_spec width full) as [->|H1].
    + symmetry. apply N.mod_unique with (q := full + 1); nia.
    + symmetry. apply N.mod_unique with (q := full); nia.
  - destruct He as [?| ->]; [contradiction|]. symmetry. apply N.mod_unique with (q := full + 1); nia.
Qed.

Lemma from_data_empty : forall m c o d s, ~ nonempty d -> exists v, from_data m Dynamic Dynamic c (strided_layout o d s) = Ok v.
Proof.
  intros m c o [a b] s Hd. assert (E : a * b = 0) by (unfold nonempty in Hd; cbn in Hd; nia).
  unfold from_data. rewrite strided_layout_count. cbn [fst snd]. unfold umul. rewrite E.
  replace (0 <? usize_mod) with true by (rewrite usize_mod_val; reflexivity). cbn [bind].
  replace (0 <=? container_number_of_elements c) with true by lia. cbn. eauto.
Qed.

Lemma c20_release_empty : forall (h : heap) mut b tl d, base_valid h b -> dense_matrix (bm_layout b) = true ->
  nonempty (dim (bm_layout b)) -> inside (dim (bm_layout b)) tl d -> ~ nonempty d ->
  let D := dim (bm_layout b) in
  let lines := if column_ordered (bm_layout b) then snd d else fst d in
  let width := if column_ordered (bm_layout b) then fst d else snd d in
  let full := if column_ordered (bm_layout b) then fst D else snd D in
  (block Wrapping mut b tl d = UB <->
     r_len (c_region (bm_data b)) < cell (bm_layout b) tl \/ lines = 0 /\ width < full) /\
  (returns (block Wrapping mut b tl d) <->
     cell (bm_layout b) tl <= r_len (c_region (bm_data b)) /\ (1 <= lines \/ width = full)).
Proof.
  intros h mut b [t0 t1] [a c] Hv Hl Hne Hi He D lines width full.
  assert (Hlen : r_len (c_region (bm_data b)) < usize_mod).
  { destruct Hv as ([_ Hs] & _). rewrite isize_max_val in Hs. rewrite usize_mod_val. lia. }
  assert (Hlast : cell (bm_layout b) (fst D - 1, snd D - 1) < r_len (c_region (bm_data b))).
  { apply Hv, chain_stored; [now apply dense_chain|]. destruct Hne. unfold D. split; cbn [fst snd]; lia. }
  assert (Hisz : r_len (c_region (bm_data b)) <= isize_max) by apply Hv.
  assert (HD : fst D * snd D <= r_len (c_region (bm_data b)) /\ fst D < usize_mod /\ snd D < usize_mod).
  { destruct Hne as [N0 N1]. unfold D in *. clear - Hl N0 N1 Hlast Hlen.
    destruct (bm_layout b) as [[A B] | [A B] | n | n | e s | e s | n s | n s | n]; try discriminate Hl;
      cbn [dim fst snd cell] in *; cbn in Hlast; nia. }
  destruct HD as (HD & HD0 & HD1).
  destruct (N.le_gt_cases (cell (bm_layout b) (t0, t1)) (r_len (c_region (bm_data b)))) as [Hc|Hc].
  2:{ erewrite far_corner_ub by eauto. unfold returns. split; [tauto|]. split; [intros (v & E); discriminate|lia]. }
  erewrite block_to_pointer by eauto.
  rewrite ptr_add_ok by (unfold get_pointer, container_get_pointer; cbn [p_off p_region]; lia). cbn [bind].
  set (p := mkPointer _ _).
  assert (Hp : p_off p = cell (bm_layout b) (t0, t1) /\ p_region p = c_region (bm_data b)).
  { unfold p, get_pointer, container_get_pointer. cbn [p_off p_region]. split; auto; lia. }
  destruct Hp as [Hp0 Hp1]. clearbody p. pose proof Hi as [Hi0 Hi1]. cbn [fst snd] in Hi0, Hi1. fold D in Hi0, Hi1.
  assert (Ha : a < usize_mod) by lia. assert (Hcc : c < usize_mod) by lia.
  assert (N0 : 1 <= fst D /\ 1 <= snd D) by exact Hne.
  assert (GOAL : from_pointer_strided Wrapping mut (order_of (bm_layout b)) p (a, c) (told_stride (bm_layout b)) =
    (slice <- from_raw_parts p (if lines =? 0 then (if width =? full then 0 else usize_mod - (full - width)) else full * (lines - 1)) ;;
     from_data Wrapping Dynamic Dynamic (slice_container mut slice)
       (strided_layout (order_of (bm_layout b)) (a, c) (told_stride (bm_layout b))))
    /\ (1 <= lines -> p_off p + full * (lines - 1) <= r_len (c_region (bm_data b)))
    /\ full <= r_len (c_region (bm_data b)) /\ width <= full).
  { unfold lines, width, full, D in *. clear lines width full D.
    assert (Em : a = 0 \/ c = 0) by (unfold nonempty in He; cbn in He; lia).
    rewrite Hp0. clear Hp0 Hp1 Hv He Hne.
    destruct (bm_layout b) as [[A B] | [A B] | n | n | e s | e s | n s | n s | n]; try discriminate Hl;
      cbn [order_of block_order told_stride column_ordered dim fst snd] in *.
    - splits; try nia; [|cbn [cell true_stride fst snd dim]; nia].
      rewrite from_pointer_strided_wrap by auto. f_equal. f_equal.
      apply empty_length; try lia; nia.
    - splits; try nia; [|cbn [cell true_stride fst snd dim]; nia].
      rewrite from_pointer_strided_wrap by auto. f_equal. f_equal.
      rewrite <- (empty_length c a A); try lia; [|nia]. f_equal. lia. }
  destruct GOAL as (G & HL & HF & HW). rewrite G. unfold from_raw_parts. rewrite Hp1.
  destruct (N.eqb_spec lines 0) as [L0|L0].
  - destruct (N.eqb_spec width full) as [W0|W0].
    + replace (p_off p + 0 <=? r_len (c_region (bm_data b))) with true by lia. cbn [bind].
      destruct (from_data_empty Wrapping (slice_container mut (mkRegion (r_alloc (c_region (bm_data b))) (r_lo (c_region (bm_data b)) + p_off p) 0))
        (order_of (bm_layout b)) (a, c) (told_stride (bm_layout b)) He) as (v & ->).
      unfold returns. split; [split; [discriminate|lia] | split; [tauto|eauto]].
    + replace (p_off p + (usize_mod - (full - width)) <=? r_len (c_region (bm_data b))) with false
        by (rewrite isize_max_val in Hisz; rewrite usize_mod_val in *; lia).
      cbn [bind]. unfold returns. split; [split; [intros _; right; lia|auto] | split; [intros (v & E); discriminate|lia]].
  - replace (p_off p + full * (lines - 1) <=? r_len (c_region (bm_data b))) with true by (specialize (HL ltac:(lia)); lia).
    cbn [bind].
    destruct (from_data_empty Wrapping (slice_container mut (mkRegion (r_alloc (c_region (bm_data b))) (r_lo (c_region (bm_data b)) + p_off p) (full * (lines - 1))))
      (order_of (bm_layout b)) (a, c) (told_stride (bm_layout b)) He) as (v & ->).
    unfold returns. split; [split; [discriminate|lia] | split; [intros _; lia|eauto]].
Qed.
End BlockExact.
