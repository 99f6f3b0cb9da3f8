(** * Proofs about the constructors: C13, C14, C15, C41. *)

From Coq Require Import ZifyBool ZifyNat ZifyN.
From Verif Require Import Machine MachineFacts Layouts Memory Matrix Spec MatrixSpec.
From Verif Require Import LayoutFacts LayoutProofs MemoryFacts AccessFacts AccessProofs.
Local Open Scope N_scope.

Lemma from_dimension_dense : forall k d l, from_dimension k d = Ok l -> has_strides l = false.
Proof. intros [] d l H; cbn [from_dimension] in H; inv_ok; reflexivity. Qed.

Lemma from_dimension_kind : forall k d l, from_dimension k d = Ok l -> index_kind l = k.
Proof. intros [] d l H; cbn [from_dimension] in H; inv_ok; reflexivity. Qed.

Lemma from_dimension_not_ub : forall k d, from_dimension k d <> UB.
Proof.
  intros [] [a b]; cbn [from_dimension fst snd]; try discriminate;
    destruct (_ =? _); discriminate.
Qed.

Lemma c14_column : forall n, n <> 1 ->
  from_dimension KColumnVector (n, 1) = Panic /\
  exists l, from_dimension KColumnVector (1, n) = Ok l /\ dim l = (1, 1).
Proof.
  intros n H. cbn [from_dimension fst snd]. apply N.eqb_neq in H. rewrite H. split; auto.
  eexists. split; reflexivity.
Qed.

Section ConstructorProofs.
Context {T : Type} {SC : HScalar T}.
Notation heap := (@heap T).
Implicit Types (h : heap) (x y : matrix T) (b : base_matrix).

Lemma only_allocates_extends : forall h h', only_allocates h h' -> extends h h'.
Proof. intros h h' H a l E. exists l. auto. Qed.

Lemma only_allocates_app : forall h k, only_allocates h (h ++ k).
Proof.
  intros h k a l E. rewrite nth_error_app1; auto. apply nth_error_Some. congruence.
Qed.

Lemma only_allocates_refl : forall h, only_allocates h h.
Proof. intros h a l E. exact E. Qed.

Lemma only_allocates_trans : forall h1 h2 h3,
  only_allocates h1 h2 -> only_allocates h2 h3 -> only_allocates h1 h3.
Proof. intros h1 h2 h3 H1 H2 a l E. auto. Qed.

Lemma keeps_matrices_intro : forall h h',
  extends h h' ->
  (forall b p, base_valid h b -> base_entry h' b p = base_entry h b p) ->
  keeps_matrices h h'.
Proof.
  intros h h' He Hb x Hv. split; [now apply valid_extends with h|]. intros p.
  induction x as [b | x IH | x IH | x IH s | x IHx y IHy l]; unfold entry in *; cbn [valid value] in *; auto.
  - rewrite IH; auto.
  - destruct Hv as (Hx & Hy & _). rewrite IHx, IHy; auto.
Qed.

Lemma only_allocates_keeps : forall h h', only_allocates h h' -> keeps_matrices h h'.
Proof.
  intros h h' H. apply keeps_matrices_intro; [now apply only_allocates_extends|].
  intros b p ([(l & E & _) _] & _). unfold base_entry, entry_cell, cell_of_region, hget. cbn [fst snd].
  now rewrite E, (H _ _ E).
Qed.

Lemma ssize_pos : 1 <= Npos ssize.
Proof. lia. Qed.

(** All constructors of new matrices end like this. *)
Lemma fresh_from_room : forall h c l rs cs n,
  has_strides l = false -> small l -> entry_count l <= n ->
  c_region c = mkRegion (length h) 0 n -> container_is_mut c = true -> n <= isize_max ->
  fresh_zeros h (h ++ [repeat szero (N.to_nat n)]) (mkBase c l rs cs).
Proof.
  intros h c l rs cs n Hl Hs Hn Hc Hm Hi. split; [apply only_allocates_app|]. split; [|split; [|split]].
  - apply dense_base_valid; auto; rewrite Hc; cbn [r_len].
    + split; auto. apply fresh_region_ok.
    + lia.
  - cbn [bm_data]. rewrite Hc. cbn [r_alloc]. lia.
  - exact Hm.
  - cbn [bm_layout]. intros p Hp. unfold base_entry, entry_cell, cell_of_region.
    cbn [bm_data bm_layout fst snd]. rewrite Hc. cbn [r_alloc r_lo].
    apply hget_fresh. pose proof (dense_cell_bound l p Hl Hp). lia.
Qed.

Lemma fresh_from_data : forall h c l rs cs n,
  has_strides l = false -> small l -> entry_count l = n ->
  c_region c = mkRegion (length h) 0 n -> container_is_mut c = true -> n <= isize_max ->
  fresh_zeros h (h ++ [repeat szero (N.to_nat n)]) (mkBase c l rs cs).
Proof. intros. apply fresh_from_room; auto. lia. Qed.

Lemma from_data_ok : forall m rs cs c l, small l -> entry_count l <= r_len (c_region c) ->
  from_data m rs cs c l = Ok (mkBase c l rs cs).
Proof.
  intros m rs cs c l Hs Hn. unfold from_data. rewrite number_of_elements_ok by auto. cbn [bind].
  unfold container_number_of_elements. apply N.leb_le in Hn. now rewrite Hn.
Qed.

Lemma zeros_ok : forall m h k rows cols l,
  from_dimension k (rows, cols) = Ok l -> entry_count l * Npos ssize <= isize_max ->
  exists h' b, zeros_from_dim m h k rows cols = Ok (h', b) /\ bm_layout b = l /\
    bm_rs b = Dynamic /\ bm_cs b = Dynamic /\ r_len (c_region (bm_data b)) = entry_count l /\
    fresh_zeros h h' b /\ h' = h ++ [repeat szero (N.to_nat (entry_count l))] /\
    c_region (bm_data b) = mkRegion (length h) 0 (entry_count l).
Proof.
  intros m h k rows cols l El Hn.
  assert (Hf : fits l) by (unfold fits; nia). pose proof (fits_small l Hf) as Hs.
  unfold zeros_from_dim. rewrite El. cbn [bind]. rewrite number_of_elements_ok by auto. cbn [bind].
  rewrite vector_container_new_ok by auto. cbn [bind].
  rewrite from_data_ok by (auto; cbn [c_region r_len]; lia). cbn [bind].
  eexists. eexists. split; [reflexivity|]. cbn [bm_layout bm_rs bm_cs bm_data c_region r_len].
  splits; auto; apply fresh_from_data; eauto using from_dimension_dense.
Qed.

Lemma zeros_panic : forall h k rows cols l,
  from_dimension k (rows, cols) = Ok l -> isize_max < entry_count l * Npos ssize ->
  zeros_from_dim Checked h k rows cols = Panic.
Proof.
  intros h k rows cols l El Hn. unfold zeros_from_dim. rewrite El. cbn [bind].
  destruct (number_of_elements Checked l) as [n | |] eqn:En; cbn [bind]; auto.
  - apply number_of_elements_checked in En as [-> _]. unfold vector_container_new.
    now replace (entry_count l * Npos ssize <=? isize_max) with false by lia.
  - exfalso. destruct l; cbn [number_of_elements] in En; try discriminate;
      revert En; try apply umul_not_ub.
    repeat (apply bind_not_ub; [auto with no_ub|intros]). auto with no_ub.
Qed.

Lemma number_of_elements_not_ub : forall m l, number_of_elements m l <> UB.
Proof.
  intros m l. destruct l; cbn [number_of_elements]; try discriminate; try apply umul_not_ub.
  repeat (apply bind_not_ub; [auto with no_ub|intros]). auto with no_ub.
Qed.

Lemma from_data_not_ub : forall m rs cs c l, from_data m rs cs c l <> UB.
Proof.
  intros m rs cs c l. unfold from_data. apply bind_not_ub; [apply number_of_elements_not_ub|intros].
  apply bind_not_ub; [auto with no_ub|discriminate].
Qed.

Lemma vector_container_new_not_ub : forall h n, vector_container_new h n <> UB.
Proof. intros h n. unfold vector_container_new. destruct (_ <=? _); discriminate. Qed.

Lemma vector_container_new_panic : forall h n, isize_max < n * Npos ssize -> vector_container_new h n = Panic.
Proof.
  intros h n H. unfold vector_container_new. now replace (n * Npos ssize <=? isize_max) with false by lia.
Qed.

Lemma zeros_not_ub : forall m h k rows cols, zeros_from_dim m h k rows cols <> UB.
Proof.
  intros m h k rows cols. unfold zeros_from_dim.
  apply bind_not_ub; [apply from_dimension_not_ub|intros l El].
  apply bind_not_ub; [apply number_of_elements_not_ub|intros n En].
  apply bind_not_ub; [apply vector_container_new_not_ub|intros [h' c] Ec].
  apply bind_not_ub; [apply from_dimension_not_ub|intros l' El'].
  apply bind_not_ub; [apply from_data_not_ub|discriminate].
Qed.

Lemma row_zeros_not_ub : forall m h rows cols, row_vector_zeros_from_dim m h rows cols <> UB.
Proof.
  intros m h rows cols. unfold row_vector_zeros_from_dim. apply bind_not_ub; [auto with no_ub|intros].
  apply bind_not_ub; [apply vector_container_new_not_ub|intros [h' c] Ec].
  apply bind_not_ub; [apply from_data_not_ub|discriminate].
Qed.

Lemma column_zeros_not_ub : forall m h rows cols, column_vector_zeros_from_dim m h rows cols <> UB.
Proof.
  intros m h rows cols. unfold column_vector_zeros_from_dim. apply bind_not_ub; [auto with no_ub|intros].
  apply bind_not_ub; [apply vector_container_new_not_ub|intros [h' c] Ec].
  apply bind_not_ub; [apply from_data_not_ub|discriminate].
Qed.

Lemma c13 : forall m h k rows cols, k = KRowMajor \/ k = KColumnMajor ->
  (rows * cols * Npos ssize <= isize_max ->
   exists h' b, zeros_from_dim m h k rows cols = Ok (h', b) /\
     mat_dim (@MBase T b) = (rows, cols) /\ index_kind (bm_layout b) = k /\
     mat_size (@MBase T b) = (Dynamic, Dynamic) /\
     r_len (c_region (bm_data b)) = rows * cols /\ fresh_zeros h h' b) /\
  (isize_max < rows * cols * Npos ssize -> zeros_from_dim Checked h k rows cols = Panic).
Proof.
  intros m h k rows cols Hk.
  assert (El : exists l, from_dimension k (rows, cols) = Ok l /\ dim l = (rows, cols) /\
             entry_count l = rows * cols) by (destruct Hk; subst; eexists; repeat split).
  destruct El as (l & El & Hd & Hn). split; intros H.
  - destruct (zeros_ok m h k rows cols l El) as (h' & b & E & Hl & Hr & Hc & Hlen & Hz & _); [now rewrite Hn|].
    exists h', b. split; auto. unfold mat_dim. cbn [mat_layout mat_size]. rewrite Hl, Hr, Hc, Hd, Hlen.
    splits; auto. now apply from_dimension_kind in El.
  - apply zeros_panic with l; auto. now rewrite Hn.
Qed.

Lemma c13_triangular : forall m h rows cols,
  (rows = cols -> rows * (rows + 1) / 2 * Npos ssize <= isize_max ->
   exists h' b, zeros_from_dim m h KUpperTriangular rows cols = Ok (h', b) /\
     bm_layout b = UpperTriangular rows /\ fresh_zeros h h' b) /\
  (rows <> cols -> zeros_from_dim m h KUpperTriangular rows cols = Panic) /\
  (isize_max < rows * (rows + 1) / 2 * Npos ssize ->
   zeros_from_dim Checked h KUpperTriangular rows cols = Panic).
Proof.
  intros m h rows cols. split; [|split].
  - intros <- Hn. destruct (zeros_ok m h KUpperTriangular rows rows (UpperTriangular rows))
      as (h' & b & E & Hl & _ & _ & _ & Hz & _); auto.
    + cbn [from_dimension fst snd]. now rewrite N.eqb_refl.
    + exists h', b. auto.
  - intros Hne. unfold zeros_from_dim. cbn [from_dimension fst snd].
    apply N.eqb_neq in Hne. now rewrite Hne.
  - intros Hn. destruct (rows =? cols) eqn:E.
    + apply zeros_panic with (UpperTriangular rows); auto. cbn [from_dimension fst snd]. now rewrite E.
    + unfold zeros_from_dim. cbn [from_dimension fst snd]. now rewrite E.
Qed.

Lemma c13_mat : forall m h o d,
  (fst d * snd d * Npos ssize <= isize_max ->
   exists h' b, mat_macro m h o d = Ok (h', b) /\ mat_dim (@MBase T b) = d /\
     index_kind (bm_layout b) = (match o with ByRow => KRowMajor | ByColumn => KColumnMajor end) /\
     fresh_zeros h h' b) /\
  (isize_max < fst d * snd d * Npos ssize -> mat_macro Checked h o d = Panic).
Proof.
  intros m h o [rows cols]. cbn [fst snd] in *. unfold mat_macro. cbn [fst snd].
  destruct (c13 m h (match o with ByRow => KRowMajor | ByColumn => KColumnMajor end) rows cols)
    as [H H']; [destruct o; auto|]. split; [|exact H']. intros Hn.
  destruct (H Hn) as (h' & b & E & Hd & Hk & _ & _ & Hz). exists h', b. auto.
Qed.

(** Vectors *)
Lemma row_vector_ok : forall m h n, n * Npos ssize <= isize_max ->
  exists h' b, row_vector_zeros_from_length m h n = Ok (h', b) /\ bm_layout b = RowVector n /\
    mat_size (@MBase T b) = (Fixed1, Dynamic) /\ fresh_zeros h h' b /\
    h' = h ++ [repeat szero (N.to_nat n)] /\ c_region (bm_data b) = mkRegion (length h) 0 n.
Proof.
  intros m h n Hn. unfold row_vector_zeros_from_length. rewrite vector_container_new_ok by auto. cbn [bind].
  assert (Hc : entry_count (RowVector n) = n) by (cbn [entry_count dim fst snd]; lia).
  rewrite from_data_ok by (unfold row_vector_from_length; rewrite ?Hc; cbn; auto; lia). cbn [bind].
  eexists. eexists. split; [reflexivity|]. cbn [bm_layout mat_size bm_rs bm_cs bm_data c_region].
  splits; auto; apply fresh_from_data; auto; try exact I; nia.
Qed.

Lemma column_vector_ok : forall m h n, n * Npos ssize <= isize_max ->
  exists h' b, column_vector_zeros_from_length m h n = Ok (h', b) /\ bm_layout b = ColumnVector n /\
    mat_size (@MBase T b) = (Dynamic, Fixed1) /\ fresh_zeros h h' b /\
    h' = h ++ [repeat szero (N.to_nat n)] /\ c_region (bm_data b) = mkRegion (length h) 0 n.
Proof.
  intros m h n Hn. unfold column_vector_zeros_from_length. rewrite vector_container_new_ok by auto. cbn [bind].
  assert (Hc : entry_count (ColumnVector n) = n) by (cbn [entry_count dim fst snd]; lia).
  rewrite from_data_ok by (unfold column_vector_from_length; rewrite ?Hc; cbn; auto; lia). cbn [bind].
  eexists. eexists. split; [reflexivity|]. cbn [bm_layout mat_size bm_rs bm_cs bm_data c_region].
  splits; auto; apply fresh_from_data; auto; try exact I; nia.
Qed.

Lemma vector_panic : forall m h n, isize_max < n * Npos ssize ->
  row_vector_zeros_from_length m h n = Panic /\ column_vector_zeros_from_length m h n = Panic.
Proof.
  intros m h n H. unfold row_vector_zeros_from_length, column_vector_zeros_from_length, vector_container_new.
  now replace (n * Npos ssize <=? isize_max) with false by lia.
Qed.

Lemma row_vector_from_dim : forall m h rows cols,
  row_vector_zeros_from_dim m h rows cols =
  if rows =? 1 then row_vector_zeros_from_length m h cols else Panic.
Proof. intros. unfold row_vector_zeros_from_dim. now destruct (rows =? 1). Qed.

Lemma column_vector_from_dim : forall m h rows cols,
  column_vector_zeros_from_dim m h rows cols =
  if cols =? 1 then column_vector_zeros_from_length m h rows else Panic.
Proof. intros. unfold column_vector_zeros_from_dim. now destruct (cols =? 1). Qed.

Lemma c14 : forall m h,
  (forall n, n * Npos ssize <= isize_max ->
    exists h' b, row_vector_zeros_from_length m h n = Ok (h', b) /\ mat_dim (@MBase T b) = (1, n) /\
                 mat_length (@MBase T b) = Some n /\ fresh_zeros h h' b) /\
  (forall n, n * Npos ssize <= isize_max ->
    exists h' b, column_vector_zeros_from_length m h n = Ok (h', b) /\ mat_dim (@MBase T b) = (n, 1) /\
                 mat_length (@MBase T b) = Some n /\ fresh_zeros h h' b) /\
  (forall n, isize_max < n * Npos ssize ->
     row_vector_zeros_from_length m h n = Panic /\ column_vector_zeros_from_length m h n = Panic) /\
  (forall rows cols,
     row_vector_zeros_from_dim m h rows cols =
       (if rows =? 1 then row_vector_zeros_from_length m h cols else Panic) /\
     column_vector_zeros_from_dim m h rows cols =
       (if cols =? 1 then column_vector_zeros_from_length m h rows else Panic)) /\
  (forall d, (fst d = 1 -> exists l, from_dimension KRowVector d = Ok l /\ dim l = d) /\
             (fst d <> 1 -> from_dimension KRowVector d = Panic)).
Proof.
  intros m h. split; [|split; [|split; [|split]]].
  - intros n Hn. destruct (row_vector_ok m h n Hn) as (h' & b & E & Hl & Hs & Hz & _).
    exists h', b. unfold mat_dim, mat_length. rewrite Hs. cbn [mat_layout]. rewrite Hl. auto.
  - intros n Hn. destruct (column_vector_ok m h n Hn) as (h' & b & E & Hl & Hs & Hz & _).
    exists h', b. unfold mat_dim, mat_length. rewrite Hs. cbn [mat_layout]. rewrite Hl. auto.
  - intros n Hn. now apply vector_panic.
  - intros rows cols. split; [apply row_vector_from_dim | apply column_vector_from_dim].
  - intros [a c]. cbn [fst from_dimension snd]. split; intros H.
    + subst. rewrite N.eqb_refl. cbn [assert_ bind]. eexists. split; reflexivity.
    + apply N.eqb_neq in H. now rewrite H.
Qed.

Lemma c14_macro : forall m h o n,
  (n * Npos ssize <= isize_max ->
   exists h' b, vector_macro m h o n = Ok (h', b) /\
     mat_dim (@MBase T b) = (match o with ByRow => (1, n) | ByColumn => (n, 1) end) /\
     index_kind (bm_layout b) = (match o with ByRow => KRowVector | ByColumn => KColumnVector end) /\
     mat_size (@MBase T b) = (match o with ByRow => (Fixed1, Dynamic) | ByColumn => (Dynamic, Fixed1) end) /\
     fresh_zeros h h' b) /\
  (isize_max < n * Npos ssize -> vector_macro m h o n = Panic).
Proof.
  intros m h o n. split; intros Hn.
  - destruct o; cbn [vector_macro].
    + destruct (row_vector_ok m h n Hn) as (h1 & b & E & Lb & S & Z & _). exists h1, b.
      splits; auto; unfold mat_dim; cbn [mat_layout]; now rewrite Lb.
    + destruct (column_vector_ok m h n Hn) as (h1 & b & E & Lb & S & Z & _). exists h1, b.
      splits; auto; unfold mat_dim; cbn [mat_layout]; now rewrite Lb.
  - destruct (c14 m h) as (_ & _ & P & _). destruct (P n Hn). now destruct o.
Qed.

(** Fixed sizes *)
Lemma c15_matrices : forall m h rs cs k, In (rs, cs, k) fixed_instances ->
  exists h' b, zeros_fixed m h k rs cs = Ok (h', b) /\ mat_size (@MBase T b) = (rs, cs) /\
    mat_dim (@MBase T b) = (size_N rs, size_N cs) /\ index_kind (bm_layout b) = k /\ fresh_zeros h h' b.
Proof.
  intros m h rs cs k H.
  assert (Hk : exists l, from_dimension k (size_N rs, size_N cs) = Ok l /\
            dim l = (size_N rs, size_N cs) /\ entry_count l = size_N rs * size_N cs /\ small l /\
            has_strides l = false /\ index_kind l = k).
  { cbn [fixed_instances In] in H.
    repeat (destruct H as [H | H]; [injection H as <- <- <-; eexists; repeat split; reflexivity|]).
    contradiction. }
  destruct Hk as (l & El & Hd & Hn & Hs & Hl & Hk).
  unfold zeros_fixed, array_container_new, alloc. rewrite repeat_length, N2Nat.id, El. cbn [bind].
  rewrite from_data_ok by (auto; cbn [c_region r_len]; lia). cbn [bind].
  eexists. eexists. split; [reflexivity|]. unfold mat_dim. cbn [mat_size mat_layout bm_rs bm_cs bm_layout].
  rewrite Hd. splits; auto; apply fresh_from_data; auto;
    (rewrite isize_max_val; destruct rs, cs; cbn [size_N]; lia).
Qed.

Lemma c15_vectors : forall m h rs cs k n, In (rs, cs, k, n) fixed_vector_instances ->
  exists h' b, zeros_fixed_vector m h rs cs k n = Ok (h', b) /\ mat_size (@MBase T b) = (rs, cs) /\
    mat_dim (@MBase T b) = (size_N rs, size_N cs) /\ index_kind (bm_layout b) = k /\ fresh_zeros h h' b.
Proof.
  intros m h rs cs k n H.
  assert (Hk : exists l, from_length k n = Some l /\
            dim l = (size_N rs, size_N cs) /\ entry_count l = n /\ small l /\
            has_strides l = false /\ index_kind l = k /\ n <= 3).
  { cbn [fixed_vector_instances In] in H.
    repeat (destruct H as [H | H]; [injection H as <- <- <- <-; eexists; repeat split; cbn; lia|]).
    contradiction. }
  destruct Hk as (l & El & Hd & Hn & Hs & Hl & Hk & H3).
  unfold zeros_fixed_vector, array_container_new, alloc. rewrite repeat_length, N2Nat.id, El. cbn [bind].
  rewrite from_data_ok by (auto; cbn [c_region r_len]; lia). cbn [bind].
  eexists. eexists. split; [reflexivity|]. unfold mat_dim. cbn [mat_size mat_layout bm_rs bm_cs bm_layout].
  rewrite Hd. splits; auto; apply fresh_from_data; auto; rewrite isize_max_val; lia.
Qed.

(** C41 *)
Lemma c41 : forall x n, mat_length x = Some n ->
  (fst (dim (mat_layout x)) = 1 -> mat_size x = (Fixed1, Dynamic) ->
     n = snd (mat_dim x) /\ n = fst (mat_dim x) * snd (mat_dim x)) /\
  (snd (dim (mat_layout x)) = 1 -> mat_size x = (Dynamic, Fixed1) ->
     n = fst (mat_dim x) /\ n = fst (mat_dim x) * snd (mat_dim x)).
Proof.
  intros x n H. unfold mat_length, mat_dim in *.
  split; intros Hd Hs; rewrite Hs in H; injection H as <-; rewrite Hd; lia.
Qed.

End ConstructorProofs.
