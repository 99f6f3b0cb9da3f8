(** * C13, C24, C35: exact outcomes without overflow checks. *)

From Coq Require Import ZifyBool ZifyNat ZifyN.
From Verif Require Import Machine MachineFacts Layouts Memory Matrix MatMul Spec MatrixSpec ProductSpec.
From Verif Require Import LayoutFacts LayoutProofs MemoryFacts AccessFacts AccessProofs AccessExact ConstructorProofs BlockProofs ExprProofs ProductProofs.
Local Open Scope N_scope.

Lemma for_range_each : forall (S : Type) (body : N -> S -> outcome S) n s s' k,
  for_range n body s = Ok s' -> k < n -> exists t t', body k t = Ok t'.
Proof.
  intros S body n s s' k H Hk. unfold for_range in H.
  assert (X : forall m i s, loop m i body s = Ok s' -> i <= k < i + N.of_nat m -> exists t t', body k t = Ok t').
  { induction m as [|m IH]; intros i t E Hi; [lia|]. cbn [loop] in E. inv_ok.
    destruct (N.eq_dec i k) as [->|]; [eauto|]. apply (IH (i + 1) a); [exact E|lia]. }
  apply (X (N.to_nat n) 0 s H). lia.
Qed.

Lemma for_range_not_panic : forall (S : Type) (body : N -> S -> outcome S) n s,
  (forall k t, body k t <> Panic) -> for_range n body s <> Panic.
Proof.
  intros S body n s Hb. unfold for_range. generalize 0 as i. revert s.
  induction (N.to_nat n) as [|m IH]; intros s i; cbn [loop]; [discriminate|].
  specialize (Hb i s). destruct (body i s); cbn [bind]; auto; discriminate.
Qed.

Section Release.
Context {T : Type} {SC : HScalar T}.
Notation heap := (@heap T).

(** The address of an entry of a dense matrix. *)
Lemma dense_raw_wrapping : forall l r c, dense_matrix l = true ->
  convert_2d_raw Wrapping l r c = Ok (cell l (r, c) mod usize_mod).
Proof.
  intros l r c Hl. pose proof usize_mod_pos as Hm.
  destruct l as [[a b] | [a b] | n | n | d s | d s | n s | n s | n]; cbn [dense_matrix] in Hl; try discriminate;
    cbn [convert_2d_raw]; unfold row_major_2d_1d, column_major_2d_1d; cbn [fst snd];
    rewrite umul_wrapping; cbn [bind]; rewrite uadd_wrapping; cbn [cell true_stride fst snd]; f_equal.
  - rewrite N.add_mod_idemp_l by exact Hm. f_equal. lia.
  - rewrite ?N.add_mod_idemp_l, ?N.add_mod_idemp_r by exact Hm. f_equal. lia.
Qed.

Lemma region_read_new : forall (h : heap) n i,
  region_read (h ++ [repeat szero (N.to_nat n)]) (mkRegion (length h) 0 n) i = if i <? n then Ok szero else UB.
Proof.
  intros h n i. unfold region_read. cbn [r_len r_alloc r_lo]. destruct (N.ltb_spec i n) as [Hi|Hi]; [|reflexivity].
  unfold hget. rewrite nth_error_app2, Nat.sub_diag by lia. cbn [nth_error].
  rewrite nth_error_nth' with (d := szero) by (rewrite repeat_length; lia).
  now rewrite nth_repeat.
Qed.

Lemma c13_release : forall (h : heap) k rows cols, k = KRowMajor \/ k = KColumnMajor ->
  let n := (rows * cols) mod usize_mod in
  let h' := h ++ [repeat szero (N.to_nat n)] in
  (isize_max < n * Npos ssize -> zeros_from_dim Wrapping h k rows cols = Panic) /\
  (n * Npos ssize <= isize_max ->
   exists b, zeros_from_dim Wrapping h k rows cols = Ok (h', b) /\
     mat_dim (@MBase T b) = (rows, cols) /\ index_kind (bm_layout b) = k /\ dense_matrix (bm_layout b) = true /\
     c_region (bm_data b) = mkRegion (length h) 0 n /\
     (forall r c, in_range (rows, cols) (r, c) ->
        get Wrapping h' (MBase b) r c = if cell (bm_layout b) (r, c) mod usize_mod <? n then Ok szero else UB) /\
     ((forall r c, get Wrapping h' (MBase b) r c <> UB) <-> rows * cols < usize_mod)).
Proof.
  intros h k rows cols Hk n h'.
  assert (El : exists l, from_dimension k (rows, cols) = Ok l /\ dim l = (rows, cols) /\ index_kind l = k /\
             entry_count l = rows * cols /\ dense_matrix l = true /\
             number_of_elements Wrapping l = Ok n).
  { destruct Hk; subst k; eexists; (split; [reflexivity|]); splits; try reflexivity;
      cbn [number_of_elements fst snd]; apply umul_wrapping. }
  destruct El as (l & El & Hd & Hi & He & Hl & Hn). unfold zeros_from_dim. rewrite El. cbn [bind]. rewrite Hn. cbn [bind].
  split.
  - intros H. rewrite vector_container_new_panic by exact H. reflexivity.
  - intros H. rewrite vector_container_new_ok by exact H. cbn [bind].
    unfold from_data. rewrite Hn. cbn [bind]. unfold container_number_of_elements. cbn [c_region r_len].
    rewrite N.leb_refl. cbn [assert_ bind].
    eexists. split; [reflexivity|]. unfold mat_dim. cbn [mat_layout bm_layout bm_data c_region].
    assert (G : forall r c, in_range (rows, cols) (r, c) ->
      get Wrapping h' (MBase (mkBase (mkContainer VectorContainer (mkRegion (length h) 0 n)) l Dynamic Dynamic)) r c =
      if cell l (r, c) mod usize_mod <? n then Ok szero else UB).
    { intros r c Hp. unfold get. cbn [mat_layout bm_layout]. rewrite assert_dimension_ok by now rewrite Hd.
      cbn [bind get_unchecked]. unfold base_get_unchecked. cbn [bm_layout bm_data].
      rewrite dense_raw_wrapping by exact Hl. cbn [bind]. unfold container_get_unchecked. cbn [c_region].
      apply region_read_new. }
    splits; auto. split.
    + intros Hg. destruct (N.lt_ge_cases (rows * cols) usize_mod) as [|Hge]; auto. exfalso.
      assert (Hlast : usize_mod - 1 < entry_count l) by (rewrite He; pose proof usize_mod_pos; lia).
      destruct (pos_spec l _ Hlast) as [[Hp Hst] E]. destruct (pos l (usize_mod - 1)) as [r c]. cbn [fst snd] in E.
      assert (Ec : cell l (r, c) = usize_mod - 1).
      { rewrite <- addr_cell by (split; assumption). rewrite <- E. clear - Hl. destruct l; cbn in *; congruence || reflexivity. }
      rewrite Hd in Hp. apply (Hg r c). rewrite G by exact Hp. rewrite Ec.
      rewrite N.mod_small by (pose proof usize_mod_pos; lia).
      assert (n < usize_mod - 1).
      { rewrite isize_max_val in H. rewrite usize_mod_val. nia. }
      destruct (N.ltb_spec (usize_mod - 1) n); [lia|reflexivity].
    + intros Hs r c. destruct (assert_dimension_cases r c (dim l)) as [[Hr _] | [_ E']].
      * rewrite Hd in Hr. rewrite G by exact Hr.
        assert (En : n = rows * cols) by (apply N.mod_small; exact Hs).
        assert (Hc : cell l (r, c) < rows * cols).
        { rewrite <- He. assert (Hst : stored l (r, c)).
          { split; [now rewrite Hd|]. intros X. clear - Hl X. destruct l; cbn in *; discriminate. }
          rewrite <- addr_cell by exact Hst. pose proof (number_bound l r c Hst) as Hb.
          rewrite <- idx_number in Hb by exact Hst. clear - Hl Hb. destruct l; cbn [addr idx] in *; try discriminate; exact Hb. }
        rewrite N.mod_small by lia. destruct (N.ltb_spec (cell l (r, c)) n); [discriminate|lia].
      * unfold get. cbn [mat_layout bm_layout]. rewrite E'. discriminate.
Qed.

(** Reads and writes of gemm do not panic; an entry of C outside of its memory
    is undefined behaviour. *)
Lemma region_read_not_panic : forall (h : heap) r i, region_read h r i <> Panic.
Proof. intros h r i. unfold region_read. destruct (i <? r_len r); [|discriminate]. destruct (hget _ _ _); discriminate. Qed.

Lemma ptr_read_not_panic : forall (h : heap) p d, ptr_read h p d <> Panic.
Proof. intros h p d. unfold ptr_read. destruct (_ <=? _)%Z; [apply region_read_not_panic|discriminate]. Qed.

Lemma ptr_write_not_panic : forall (h : heap) p d v, ptr_write h p d v <> Panic.
Proof.
  intros h p d v. unfold ptr_write. destruct (_ <=? _)%Z; [|discriminate]. unfold region_place.
  destruct (_ <? _); cbn [bind]; [|discriminate]. unfold place_write. destruct (hget _ _ _); discriminate.
Qed.

Lemma collect_not_panic : forall (A : Type) (f : N -> outcome A) n i, (forall k, f k <> Panic) -> collect n i f <> Panic.
Proof.
  intros A f n. induction n as [|n IH]; intros i Hf; cbn [collect]; [discriminate|].
  specialize (Hf i) as Hi. specialize (IH (i + 1) Hf). destruct (f i); cbn [bind]; try congruence.
  destruct (collect n (i + 1) f); cbn [bind]; congruence.
Qed.

Lemma gemm_entry_not_panic : forall kern sh alpha a b beta c i j (h : heap),
  gemm_entry kern sh alpha a b beta c i j h <> Panic.
Proof.
  intros kern sh alpha a b beta c i j h. unfold gemm_entry.
  match goal with |- bind ?x _ <> _ => assert (X : x <> Panic); [|destruct x; cbn [bind]; try congruence] end.
  - apply collect_not_panic. intros k.
    pose proof (ptr_read_not_panic h a (gemm_offset (g_sa sh) i k)).
    pose proof (ptr_read_not_panic h b (gemm_offset (g_sb sh) k j)).
    destruct (ptr_read h a _); cbn [bind]; try congruence. destruct (ptr_read h b _); cbn [bind]; congruence.
  - pose proof (ptr_read_not_panic h c (gemm_offset (g_sc sh) i j)).
    destruct (ptr_read h c _); cbn [bind]; try congruence. apply ptr_write_not_panic.
Qed.

Lemma matmul_outside_ub : forall kern (h : heap) alpha a b beta c sa sb sc i j,
  stride (bm_layout a) = Ok sa -> stride (bm_layout b) = Ok sb -> stride (bm_layout c) = Ok sc ->
  compatible (dim (bm_layout a)) (dim (bm_layout b)) (dim (bm_layout c)) ->
  in_range (dim (bm_layout c)) (i, j) ->
  (forall h' : heap, ptr_read h' (get_pointer c) (gemm_offset (as_isize (fst sc), as_isize (snd sc)) i j) = UB) ->
  matmul kern h alpha a b beta c = UB.
Proof.
  intros kern h alpha a b beta c sa sb sc i j Ea Eb Ec Hd [Hi Hj] Hub. cbn [fst snd] in *.
  unfold matmul. pose proof (proj2 (matmul_dims _ _ _) Hd) as ->. cbn [assert_ bind]. rewrite Ea, Eb, Ec. cbn [bind].
  destruct Hd as (D1 & D2 & D3). unfold gemm. rewrite <- D2, <- D3.
  match goal with |- ?x = UB => destruct x as [h' | |] eqn:E; [exfalso|exfalso|reflexivity] end.
  - destruct (for_range_each _ _ _ _ _ i E Hi) as (t & t' & E1).
    destruct (for_range_each _ _ _ _ _ j E1 Hj) as (u & u' & E2).
    unfold gemm_entry in E2. cbn [g_sc] in E2. inv_ok. congruence.
  - revert E. apply for_range_not_panic. intros k t. apply for_range_not_panic. intros l u. apply gemm_entry_not_panic.
Qed.

Lemma c35_release_exact : forall shape kern (h : heap) a b,
  base_valid h a -> base_valid h b -> true_strides (bm_layout a) -> true_strides (bm_layout b) ->
  shape_fits shape (dim (bm_layout a)) (dim (bm_layout b)) ->
  snd (dim (bm_layout a)) = fst (dim (bm_layout b)) ->
  let rows := fst (dim (bm_layout a)) in
  let cols := snd (dim (bm_layout b)) in
  rows < usize_mod -> cols < usize_mod ->
  let n := (rows * cols) mod usize_mod in
  (isize_max < n * Npos ssize -> dot shape kern Wrapping h a b = Panic) /\
  (n * Npos ssize <= isize_max -> rows * cols < usize_mod -> returns (dot shape kern Wrapping h a b)) /\
  (n * Npos ssize <= isize_max -> usize_mod <= rows * cols -> dot shape kern Wrapping h a b = UB).
Proof.
  intros shape kern h a b Va Vb Sa Sb Hsh Hd rows cols Hr Hc n.
  assert (Hm : usize_mod <> 0) by apply usize_mod_pos.
  split; [|split].
  - intros H. destruct shape; cbn [dot shape_fits] in *; unfold dot_mat_mat, dot_row_mat, dot_mat_col; fold rows cols.
    + destruct (c13_release h KRowMajor rows cols (or_introl eq_refl)) as [X _]. now rewrite X.
    + unfold row_vector_zeros_from_dim. fold rows in Hsh. rewrite Hsh. cbn [N.eqb Pos.eqb assert_ bind].
      rewrite vector_container_new_panic; [reflexivity|]. unfold n in H. rewrite Hsh, N.mul_1_l, N.mod_small in H; auto.
    + unfold column_vector_zeros_from_dim. fold cols in Hsh. rewrite Hsh. cbn [N.eqb Pos.eqb assert_ bind].
      rewrite vector_container_new_panic; [reflexivity|]. unfold n in H. rewrite Hsh, N.mul_1_r, N.mod_small in H; auto.
  - intros H Hlt.
    destruct (entries_exist h a Va (true_strided_type _ Sa)) as (A & EA).
    destruct (entries_exist h b Vb (true_strided_type _ Sb)) as (B & EB).
    destruct (c35 shape kern Wrapping h a b A B Va Vb Sa Sb Hsh EA EB) as [X _].
    unfold n in H. rewrite N.mod_small in H by exact Hlt.
    destruct (X Hd H) as (h' & r & sh & E & _). exists (h', r). exact E.
  - intros H Hge. destruct shape; cbn [dot shape_fits] in *; [|fold rows in Hsh; nia|fold cols in Hsh; nia].
    unfold dot_mat_mat. fold rows cols.
    destruct (c13_release h KRowMajor rows cols (or_introl eq_refl)) as [_ X].
    destruct (X H) as (r & E & Dr & Kr & Hden & Reg & _). rewrite E. cbn [bind]. clear X E.
    unfold mat_dim in Dr. cbn [mat_layout] in Dr.
    assert (Er : bm_layout r = RowMajor (rows, cols)).
    { destruct (bm_layout r) as [D|D|n0|n0|D s|D s|n0 s|n0 s|n0]; cbn [dense_matrix index_kind dim] in *; try discriminate. now rewrite Dr. }
    destruct Sa as (sa & Esa & _), Sb as (sb & Esb & _).
    assert (Cmp : compatible (dim (bm_layout a)) (dim (bm_layout b)) (dim (bm_layout r))).
    { rewrite Dr. split; [exact Hd|split; reflexivity]. }
    assert (P : exists i j, in_range (rows, cols) (i, j) /\
      forall h' : heap, ptr_read h' (get_pointer r) (gemm_offset (as_isize cols, as_isize 1) i j) = UB).
    { assert (One : as_isize 1 = 1%Z) by reflexivity. rewrite One.
      unfold get_pointer, container_get_pointer. rewrite Reg. unfold ptr_read, gemm_offset. cbn [p_off p_region fst snd].
      destruct (N.leb_spec cols isize_max) as [Hs|Hs].
      - assert (Hc0 : cols <> 0) by nia. assert (Hn : n < rows * cols) by (pose proof (N.mod_upper_bound (rows * cols) _ Hm); unfold n; lia).
        exists (n / cols), (n mod cols). split.
        + split; cbn [fst snd]; [apply N.div_lt_upper_bound; lia|now apply N.mod_upper_bound].
        + intros h'. rewrite as_isize_small by exact Hs. pose proof (N.div_mod n cols Hc0) as Edm.
          replace (Z.of_N 0 + (Z.of_N (n / cols) * Z.of_N cols + Z.of_N (n mod cols) * 1))%Z with (Z.of_N n) by lia.
          destruct (0 <=? Z.of_N n)%Z eqn:E0; [|lia]. rewrite N2Z.id. unfold region_read. cbn [r_len].
          now rewrite N.ltb_irrefl.
      - exists 1, 0. split; [split; cbn [fst snd]; nia|]. intros h'. unfold as_isize.
        replace (cols <=? isize_max) with false by lia.
        match goal with |- (if (?x <=? ?y)%Z then _ else _) = _ => replace (x <=? y)%Z with false by lia end.
        reflexivity. }
    destruct P as (i & j & Hij & Pub).
    rewrite (matmul_outside_ub kern _ sone a b szero r sa sb (cols, 1) i j); auto.
    + rewrite Er. reflexivity.
    + rewrite Dr. exact Hij.
Qed.

(** C24 *)
Lemma c24_release_exact : forall (h : heap) mut o p d s,
  slice_ok h (p_region p) -> nonempty d ->
  let last := (fst d - 1) * fst s + (snd d - 1) * snd s in
  p_off p + last < r_len (p_region p) ->
  let n := (fst d * snd d) mod usize_mod in
  (last + 1 < n -> from_pointer_strided Wrapping mut o p d s = Panic) /\
  (n <= last + 1 ->
   exists b, from_pointer_strided Wrapping mut o p d s = Ok b /\ dim (bm_layout b) = d /\
     container_is_mut (bm_data b) = mut /\
     c_region (bm_data b) = mkRegion (r_alloc (p_region p)) (r_lo (p_region p) + p_off p) (last + 1) /\
     (forall r c, in_range d (r, c) ->
        returns_entry (get Wrapping h (MBase b) r c)
          (hget h (r_alloc (p_region p)) (r_lo (p_region p) + p_off p + (r * fst s + c * snd s)))) /\
     (forall r c, ~ in_range d (r, c) -> get Wrapping h (MBase b) r c = Panic)).
Proof.
  intros h mut o p d s Hr Hd last Hl n.
  rewrite from_pointer_strided_unfold; [|exact Hd|apply Hr|unfold span; fold last; lia].
  assert (Sp : span d s = last + 1) by reflexivity. rewrite Sp.
  set (reg := mkRegion (r_alloc (p_region p)) (r_lo (p_region p) + p_off p) (last + 1)).
  assert (F : from_data Wrapping Dynamic Dynamic (slice_container mut reg) (strided_layout o d s) =
    if n <=? last + 1 then Ok (mkBase (slice_container mut reg) (strided_layout o d s) Dynamic Dynamic) else Panic).
  { unfold from_data. rewrite strided_layout_count, umul_wrapping. cbn [bind]. fold n.
    unfold container_number_of_elements. rewrite slice_container_region. unfold reg. cbn [r_len].
    now destruct (n <=? last + 1). }
  split; intros Hn.
  - rewrite F. now replace (n <=? last + 1) with false by lia.
  - replace (n <=? last + 1) with true in F by lia. rewrite F. eexists. split; [reflexivity|].
    cbn [bm_layout bm_data].
    assert (Sl : slice_ok h (c_region (slice_container mut reg))).
    { rewrite slice_container_region. destruct Hr as [(l & El & Ll) Hm]. split.
      - exists l. unfold reg. cbn [r_alloc r_lo r_len]. split; [exact El|]. lia.
      - unfold reg. cbn [r_len]. lia. }
    assert (Hst : has_strides (strided_layout o d s) = true) by (destruct o; reflexivity).
    assert (X : forall r c, _) by (intros r c; exact (c10_exact Wrapping h _ _ _ _ _ r c szero Sl Hst F)).
    rewrite slice_container_region in X. rewrite slice_container_region, strided_layout_dim in *.
    splits; auto.
    + apply slice_container_mut_is.
    + intros r c Hp. destruct (X r c) as [_ G]. specialize (G Hp).
      assert (Ec : cell (strided_layout o d s) (r, c) = r * fst s + c * snd s) by (destruct o; reflexivity).
      rewrite Ec in G. destruct Hp as [P0 P1]. cbn [fst snd] in P0, P1.
      assert (Hb : r * fst s + c * snd s <= last) by (unfold last; nia).
      destruct Hr as [_ Hm]. rewrite isize_max_val in Hm.
      unfold reached in G. replace (r * fst s + c * snd s <? usize_mod) with true in G by (rewrite usize_mod_val; lia).
      cbn zeta in G. unfold reg in G. cbn [r_len r_alloc r_lo] in G.
      replace (r * fst s + c * snd s <? last + 1) with true in G by lia. destruct G as [(w & G1 & G2) _].
      exists w. split; [exact G1|]. exact G2.
    + intros r c Hp. now apply (X r c).
Qed.
End Release.
