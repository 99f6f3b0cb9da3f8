(** * Proofs of the layout properties. *)

From Coq Require Import ZifyBool ZifyNat ZifyN.
From Verif Require Import Machine MachineFacts Layouts Spec LayoutFacts.
Local Open Scope N_scope.

(** C01 *)

Lemma convert_1d_2d_matrix : forall m l i,
  row_ordered l || column_ordered l = true -> i < fst (dim l) * snd (dim l) ->
  convert_1d_2d m l i = Ok (pos l i).
Proof.
  intros m l i Hl Hi.
  destruct l as [d | d | n | n | d s | d s | n s | n s | n]; cbn in Hl; try discriminate;
    cbn [convert_1d_2d pos dim] in *.
  1,3: now apply row_major_1d_2d_ok.
  1,2: now apply column_major_1d_2d_ok.
Qed.

Lemma matrix_count : forall l, row_ordered l || column_ordered l = true ->
  entry_count l = fst (dim l) * snd (dim l).
Proof. intros []; cbn; congruence. Qed.

Lemma matrix_stored : forall l p, row_ordered l || column_ordered l = true ->
  in_range (dim l) p -> stored l p.
Proof. intros l p Hl Hp. split; auto. destruct l; cbn in *; congruence. Qed.

Lemma matrix_small : forall l, row_ordered l || column_ordered l = true ->
  fst (dim l) * snd (dim l) < usize_mod -> small l.
Proof. intros [] Hl H; cbn in *; try discriminate; auto. Qed.

Lemma c01 : forall m l,
  row_ordered l || column_ordered l = true ->
  fst (dim l) * snd (dim l) < usize_mod ->
  number_of_elements m l = Ok (fst (dim l) * snd (dim l)) /\
  bijective (fst (dim l) * snd (dim l)) (in_range (dim l))
    (convert_1d_2d m l) (fun p => convert_2d_1d m l (fst p) (snd p)) /\
  ordered (fst (dim l) * snd (dim l))
    (if row_ordered l then before_by_rows else before_by_columns) (convert_1d_2d m l).
Proof.
  intros m l Hl Hsz.
  pose proof (matrix_small l Hl Hsz) as Hsm. pose proof (matrix_count l Hl) as Hc.
  split; [|split].
  - rewrite number_of_elements_ok by auto. now rewrite Hc.
  - split.
    + intros i Hi. rewrite <- Hc in Hi. destruct (pos_spec l i Hi) as [Hs Ei].
      exists (pos l i). rewrite Hc in Hi. split; [now apply convert_1d_2d_matrix|].
      split; [apply Hs|]. rewrite convert_2d_1d_ok by (auto; now destruct (pos l i)). now rewrite Ei.
    + intros [r c] Hp. pose proof (matrix_stored l _ Hl Hp) as Hs. cbn [fst snd].
      exists (idx l r c). pose proof (idx_bound l r c Hs) as Hb. rewrite Hc in Hb.
      split; [now apply convert_2d_1d_ok|]. split; auto.
      rewrite convert_1d_2d_matrix by auto. now rewrite idx_pos.
  - intros i j p q Hij Hj Ei Ej.
    rewrite convert_1d_2d_matrix in Ei, Ej by (auto; lia). inv_ok.
    destruct l as [[a b] | [a b] | n | n | [a b] s | [a b] s | n s | n s | n]; cbn in Hl; try discriminate;
      cbn [row_ordered pos dim fst snd] in *; unfold before_by_rows, before_by_columns; cbn [fst snd].
    1,3: destruct (div_lt_bound _ _ _ Hj) as (Hw & ? & ? & ?);
         pose proof (N.mod_lt i b Hw); pose proof (N.div_mod i b Hw); nia.
    1,2: rewrite N.mul_comm in Hj; destruct (div_lt_bound _ _ _ Hj) as (Hw & ? & ? & ?);
         pose proof (N.mod_lt i a Hw); pose proof (N.div_mod i a Hw); nia.
Qed.

(** C02 *)

Lemma c02_refuted : forall m l i, row_vector_like l || column_vector_like l = true ->
  exists p, convert_1d_2d m l i = Ok p /\ ~ in_range (dim l) p.
Proof.
  intros m l i Hl.
  destruct l; cbn in Hl; try discriminate; eexists; (split; [reflexivity|]);
    unfold in_range; cbn; lia.
Qed.

Lemma c02_exact : forall m l i,
  (row_vector_like l = true -> convert_1d_2d m l i = Ok (1, i)) /\
  (column_vector_like l = true -> convert_1d_2d m l i = Ok (i, 1)).
Proof. intros m [] i; cbn; split; intros H; try discriminate; reflexivity. Qed.

Lemma c02_round_trip : forall m l i, row_vector_like l || column_vector_like l = true ->
  exists p, convert_1d_2d m l i = Ok p /\ convert_2d_1d m l (fst p) (snd p) = Ok i.
Proof.
  intros m l i Hl.
  destruct l; cbn in Hl; try discriminate; eexists; (split; reflexivity).
Qed.

Lemma c02_numbering : forall m l, row_vector_like l || column_vector_like l = true ->
  numbering (fst (dim l) * snd (dim l)) (in_range (dim l)) (fun p => convert_2d_1d m l (fst p) (snd p)).
Proof.
  intros m l Hl. unfold numbering, in_range.
  destruct l as [d | d | n | n | d s | d s | n s | n s | n]; cbn in Hl; try discriminate;
    cbn [dim fst snd convert_2d_1d]; (split; [|split]).
  all: try (intros [r c] [Hr Hc]; cbn [fst snd] in *; eexists; split; [reflexivity | lia]).
  all: try (intros [r c] [r' c'] i [Hr Hc] [Hr' Hc'] E E'; cbn [fst snd] in *; inv_ok; f_equal; lia).
  1,3: intros i Hi; exists (0, i); cbn [fst snd]; split; auto; lia.
  1,2: intros i Hi; exists (i, 0); cbn [fst snd]; split; auto; lia.
Qed.

(** C03 *)

Lemma numbering_idx : forall l (f : N * N -> outcome N),
  (forall r c, stored l (r, c) -> f (r, c) = Ok (idx l r c)) ->
  numbering (entry_count l) (stored l) f.
Proof.
  intros l f Hf. split; [|split].
  - intros [r c] Hs. exists (idx l r c). split; auto. now apply idx_bound.
  - intros [r c] [r' c'] i Hs Hs' E E'. rewrite Hf in E, E' by auto. inv_ok.
    now apply idx_inj with l.
  - intros i Hi. destruct (pos_spec l i Hi) as [Hs E]. exists (pos l i). split; auto.
    destruct (pos l i) as [r c]. cbn [fst snd] in E. rewrite Hf by auto. now rewrite E.
Qed.

Lemma c03 : forall m n, fits (UpperTriangular n) ->
  number_of_elements m (UpperTriangular n) = Ok (n * (n + 1) / 2) /\
  numbering (n * (n + 1) / 2) (fun p => fst p <= snd p /\ snd p < n)
    (fun p => convert_2d_1d m (UpperTriangular n) (fst p) (snd p)) /\
  (forall row col, col < row -> convert_2d_1d m (UpperTriangular n) row col = Panic).
Proof.
  intros m n Hf. split; [|split].
  - rewrite number_of_elements_ok; auto.
  - assert (H : numbering (entry_count (UpperTriangular n)) (stored (UpperTriangular n))
              (fun p => convert_2d_1d m (UpperTriangular n) (fst p) (snd p))).
    { apply numbering_idx. intros r c Hs. apply convert_2d_1d_ok; auto. }
    assert (Hv : forall p, stored (UpperTriangular n) p <-> fst p <= snd p /\ snd p < n).
    { intros [r c]. unfold stored, in_range. cbn. intuition lia. }
    destruct H as (A & B & C). cbn [entry_count] in *. split; [|split].
    + intros p Hp. apply A. now apply Hv.
    + intros p q i Hp Hq. apply B; now apply Hv.
    + intros i Hi. destruct (C i Hi) as (p & Hp & E). exists p. split; auto. now apply Hv.
  - intros row col H. cbn [convert_2d_1d]. unfold upper_triangular_2d_1d, assert_.
    replace (row <=? col) with false by lia. reflexivity.
Qed.

(** C05 *)

Lemma c05_raw : forall m l r c i, fits l -> stored l (r, c) ->
  convert_2d_1d m l r c = Ok i -> convert_1d_raw m l i = convert_2d_raw m l r c.
Proof.
  intros m l r c i Hf Hs E. rewrite convert_2d_1d_ok in E by auto. inv_ok.
  pose proof (convert_2d_1d_ok m l r c (fits_small _ Hf) Hs) as E.
  pose proof (idx_bound l r c Hs) as Hb.
  destruct Hs as [[Hr Hc] Hut].
  destruct l as [[a b] | [a b] | n | n | [a b] s | [a b] s | n s | n s | n];
    cbn [convert_1d_raw convert_2d_raw convert_2d_1d idx dim fst snd entry_count] in *;
    try (symmetry; exact E); auto.
  - rewrite row_major_1d_2d_ok by (cbn [fst snd]; auto). cbn [bind fst snd].
    now destruct (divmod_of b r c Hc) as [-> ->].
  - rewrite column_major_1d_2d_ok by (cbn [fst snd]; auto). cbn [bind fst snd].
    now destruct (divmod_of a c r Hr) as [-> ->].
Qed.

(** C06 *)

Lemma addr_true_stride : forall l r c, is_strided_layout l = true -> in_range (dim l) (r, c) ->
  addr l r c = r * fst (true_stride l) + c * snd (true_stride l).
Proof.
  intros l r c Hl [Hr Hc].
  destruct l as [[a b] | [a b] | n | n | [a b] [s0 s1] | [a b] [s0 s1] | n s | n s | n];
    cbn [is_strided_layout addr idx true_stride dim fst snd] in *; try discriminate; nia.
Qed.

Lemma strided_stored : forall l p, is_strided_layout l = true -> in_range (dim l) p -> stored l p.
Proof. intros l p Hl Hp. split; auto. destruct l; cbn in *; congruence. Qed.

Lemma convert_2d_raw_addressable : forall m l r c, is_strided_layout l = true -> addressable l ->
  (has_strides l = true \/ fits l) -> in_range (dim l) (r, c) ->
  convert_2d_raw m l r c = Ok (r * fst (true_stride l) + c * snd (true_stride l)).
Proof.
  intros m l r c Hl Ha Hf Hr. rewrite <- addr_true_stride by auto.
  destruct (has_strides l) eqn:E.
  - apply convert_2d_raw_strided; auto. rewrite addr_true_stride by auto. now apply Ha.
  - destruct Hf as [Hf | Hf]; [discriminate|].
    apply convert_2d_raw_dense; auto. now apply strided_stored.
Qed.

Lemma true_stride_contract : forall m l, is_strided_layout l = true -> addressable l ->
  (has_strides l = true \/ fits l) ->
  stride_contract (convert_2d_raw m l) (dim l) (true_stride l).
Proof.
  intros m l Hl Ha Hf. split; intros r c H1 H2;
    exists (r * fst (true_stride l) + c * snd (true_stride l));
    rewrite !convert_2d_raw_addressable by auto; split; auto; f_equal; lia.
Qed.

Lemma dense_addressable : forall l, is_strided_layout l = true -> has_strides l = false -> fits l ->
  addressable l.
Proof.
  intros l Hl Hh Hf r c Hr. rewrite <- addr_true_stride by auto.
  apply N.lt_trans with (entry_count l).
  - replace (addr l r c) with (idx l r c) by (destruct l; cbn in *; congruence).
    apply idx_bound. now apply strided_stored.
  - now apply fits_usize.
Qed.

Lemma c06 : forall m l, is_strided_layout l = true -> strided_matrix l = false -> fits l ->
  (has_strides l = true -> addressable l) ->
  exists s, stride l = Ok s /\ stride_contract (convert_2d_raw m l) (dim l) s.
Proof.
  intros m l Hl Hm Hf Ha. exists (true_stride l). split.
  - destruct l; cbn in *; try discriminate; reflexivity.
  - apply true_stride_contract; auto. destruct (has_strides l) eqn:E; auto.
    now apply dense_addressable.
Qed.

Lemma c06_refuted : forall m l s, strided_matrix l = true -> fits l -> addressable l ->
  stride l = Ok s -> 2 <= fst (dim l) -> 2 <= snd (dim l) -> true_stride l <> s ->
  ~ stride_contract (convert_2d_raw m l) (dim l) s.
Proof.
  intros m l s Hm Hf Ha Es Hr Hc Hne [C1 C2]. apply Hne. clear Hne.
  assert (Hl : is_strided_layout l = true) by (destruct l; cbn in *; congruence).
  destruct (true_stride_contract m l Hl Ha (or_intror Hf)) as [T1 T2].
  assert (R00 : in_range (dim l) (0, 0)) by (split; cbn; lia).
  assert (R10 : in_range (dim l) (0 + 1, 0)) by (split; cbn; lia).
  assert (R01 : in_range (dim l) (0, 0 + 1)) by (split; cbn; lia).
  destruct (C1 0 0 R00 R10) as (a & E1 & E2). destruct (T1 0 0 R00 R10) as (a' & E1' & E2').
  destruct (C2 0 0 R00 R01) as (b & F1 & F2). destruct (T2 0 0 R00 R01) as (b' & F1' & F2').
  destruct (true_stride l) as [t0 t1], s as [s0 s1]. cbn [fst snd] in *.
  rewrite E1 in E1'. rewrite E2 in E2'. rewrite F1 in F1'. rewrite F2 in F2'. inv_ok.
  f_equal; lia.
Qed.

(** C07 *)

Lemma c07 : forall m l, upper_triangular_like l = false -> convert_2d_raw m l 0 0 = Ok 0.
Proof.
  intros m l Hl.
  destruct l as [[a b] | [a b] | n | n | [a b] [s0 s1] | [a b] [s0 s1] | n s | n s | n];
    cbn [upper_triangular_like] in Hl; try discriminate; cbn [convert_2d_raw];
    unfold row_major_2d_1d, column_major_2d_1d, strided_raw; cbn [fst snd]; rewrite ?N.mul_0_r; auto.
  all: repeat (rewrite umul_ok by (rewrite usize_mod_val; lia); cbn [bind]);
       rewrite ?N.mul_0_r, ?N.mul_0_l, ?uadd_ok by (rewrite usize_mod_val; lia); auto.
Qed.

Lemma c07_refuted : forall m n, 1 <= n -> fits (UpperTriangular n) ->
  convert_2d_raw m (UpperTriangular n) 0 0 = Ok (n * (n - 1) / 2).
Proof.
  intros m n Hn Hf. change (convert_2d_1d m (UpperTriangular n) 0 0 = Ok (n * (n - 1) / 2)).
  rewrite convert_2d_1d_ok; auto.
  - cbn [idx]. unfold tri. f_equal.
    replace ((n - 1 - 0) * (n - 1 - 0 + 1)) with (n * (n - 1)) by nia. lia.
  - split; cbn; intros; try lia. split; cbn; lia.
Qed.

(** C08 *)

Lemma c08_dense : forall m l, has_strides l = false -> fits l ->
  numbering (entry_count l) (stored l) (fun p => convert_2d_raw m l (fst p) (snd p)) /\
  numbering (entry_count l) (fun i => i < entry_count l) (convert_1d_raw m l).
Proof.
  intros m l Hh Hf. split.
  - apply numbering_idx. intros r c Hs. cbn [fst snd].
    rewrite convert_2d_raw_dense by auto. destruct l; cbn in *; congruence.
  - assert (E : forall i, convert_1d_raw m l i = Ok i) by (destruct l; cbn in *; congruence).
    split; [|split].
    + intros i Hi. exists i. auto.
    + intros i j k _ _. rewrite !E. intros. inv_ok. auto.
    + intros i Hi. exists i. auto.
Qed.

Lemma separated_inj : forall d s r c r' c', separated d s -> in_range d (r, c) -> in_range d (r', c') ->
  r * fst s + c * snd s = r' * fst s + c' * snd s -> (r, c) = (r', c').
Proof.
  intros [a b] [s0 s1] r c r' c' Hs [Hr Hc] [Hr' Hc'] E. cbn [fst snd] in *.
  destruct Hs as [[H1 H2] | [H1 H2]]; cbn [fst snd] in *.
  - assert (s1 * c <= s1 * (b - 1)) by nia. assert (s1 * c' <= s1 * (b - 1)) by nia.
    assert (r = r') by nia. subst r'. f_equal. nia.
  - assert (s0 * r <= s0 * (a - 1)) by nia. assert (s0 * r' <= s0 * (a - 1)) by nia.
    assert (c = c') by nia. subst c'. f_equal. nia.
Qed.

Lemma c08_strided : forall m l, has_strides l = true -> fits l -> addressable l ->
  separated (dim l) (true_stride l) ->
  injective (stored l) (fun p => convert_2d_raw m l (fst p) (snd p)) /\
  injective (fun i => i < entry_count l) (convert_1d_raw m l).
Proof.
  intros m l Hh Hf Ha Hsep.
  assert (Hl : is_strided_layout l = true) by (destruct l; cbn in *; congruence).
  assert (E : forall r c, in_range (dim l) (r, c) ->
            convert_2d_raw m l r c = Ok (r * fst (true_stride l) + c * snd (true_stride l))).
  { intros. apply convert_2d_raw_addressable; auto. }
  split; split.
  - intros [r c] [Hs _]. eexists. now apply E.
  - intros [r c] [r' c'] i [Hs _] [Hs' _] H1 H2. cbn [fst snd] in *.
    rewrite E in H1, H2 by auto. inv_ok. now apply separated_inj with (dim l) (true_stride l).
  - intros i Hi. destruct (pos_spec l i Hi) as [Hs Ei].
    exists (raw_of_index l i). apply convert_1d_raw_ok; auto.
    rewrite raw_of_index_pos by auto. destruct (pos l i) as [r c]. cbn [fst snd].
    rewrite addr_true_stride; auto; [apply Ha|]; apply Hs.
  - intros i j k Hi Hj E1 E2.
    destruct (pos_spec l i Hi) as [Hsi Ei]. destruct (pos_spec l j Hj) as [Hsj Ej].
    assert (K : forall i, i < entry_count l -> raw_of_index l i < usize_mod /\
              raw_of_index l i = fst (pos l i) * fst (true_stride l) + snd (pos l i) * snd (true_stride l)).
    { intros x Hx. destruct (pos_spec l x Hx) as [[Hs _] _].
      rewrite raw_of_index_pos by auto. destruct (pos l x) as [r c]. cbn [fst snd].
      rewrite addr_true_stride by auto. split; auto. }
    destruct (K i Hi) as [Ki Ki']. destruct (K j Hj) as [Kj Kj'].
    rewrite convert_1d_raw_ok in E1, E2 by auto.
    assert (E3 : raw_of_index l i = raw_of_index l j) by congruence.
    rewrite Ki', Kj' in E3. rewrite <- Ei, <- Ej.
    destruct (pos l i) as [r c], (pos l j) as [r' c']. cbn [fst snd] in *.
    injection (separated_inj _ _ _ _ _ _ Hsep (proj1 Hsi) (proj1 Hsj) E3) as -> ->. auto.
Qed.

Lemma c06_panics : forall l, stride l = Panic <-> is_strided_layout l = false.
Proof. intros []; cbn; split; intros H; first [reflexivity | discriminate H]. Qed.
