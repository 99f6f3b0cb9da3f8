(** * Proofs of the properties C17 - C24 about blocks, splits and from_pointer. *)

From Coq Require Import ZifyBool ZifyNat ZifyN.
From Verif Require Import Machine MachineFacts Layouts Memory Matrix Spec MatrixSpec.
From Verif Require Import LayoutFacts LayoutProofs MemoryFacts AccessFacts AccessProofs.
Local Open Scope N_scope.

Section BlockProofs.
Context {T : Type} {SC : HScalar T}.
Notation heap := (@heap T).
Implicit Types (h : heap) (x y : matrix T) (b : base_matrix).

(** ** from_pointer *)

Definition span (d s : N * N) : N := (fst d - 1) * fst s + (snd d - 1) * snd s + 1.

Definition view (mut : bool) (o : order) (r : region) (off : N) (d s : N * N) : base_matrix :=
  mkBase (slice_container mut (mkRegion (r_alloc r) (r_lo r + off) (span d s)))
         (strided_layout o d s) Dynamic Dynamic.

Lemma strided_layout_dim : forall o d s, dim (strided_layout o d s) = d.
Proof. intros []; reflexivity. Qed.

Lemma strided_layout_cell : forall o d s p,
  cell (strided_layout o d s) p = fst p * fst s + snd p * snd s.
Proof. intros []; reflexivity. Qed.

Lemma strided_layout_count : forall m o d s,
  number_of_elements m (strided_layout o d s) = umul m (fst d) (snd d).
Proof. intros m []; reflexivity. Qed.

Lemma strided_layout_stored : forall o d s p, stored (strided_layout o d s) p <-> in_range d p.
Proof.
  intros o d s p. unfold stored. rewrite strided_layout_dim. split; [tauto|].
  intros H. split; auto. destruct o; discriminate.
Qed.

Lemma slice_container_region : forall mut r, c_region (slice_container mut r) = r.
Proof. intros [] r; reflexivity. Qed.

Lemma slice_container_mut_is : forall mut r, container_is_mut (slice_container mut r) = mut.
Proof. intros [] r; reflexivity. Qed.

Lemma span_cell : forall d s p, in_range d p -> fst p * fst s + snd p * snd s < span d s.
Proof.
  intros [a b] [s0 s1] [r c] [Hr Hc]. unfold span. cbn [fst snd] in *.
  assert (r * s0 <= (a - 1) * s0) by (apply N.mul_le_mono_r; lia).
  assert (c * s1 <= (b - 1) * s1) by (apply N.mul_le_mono_r; lia). lia.
Qed.

Lemma span_pos : forall d s, 1 <= span d s.
Proof. intros d s. unfold span. rewrite N.add_comm. apply N.le_add_r. Qed.

Lemma view_valid : forall h mut o r off d s, slice_ok h r -> off + span d s <= r_len r ->
  fst d * snd d <= span d s -> base_valid h (view mut o r off d s).
Proof.
  intros h mut o r off d s [Hr Hl] Ho Hn. rewrite isize_max_val in Hl.
  unfold base_valid, view. cbn [bm_data bm_layout]. rewrite slice_container_region. splits.
  - split; [now apply region_ok_sub|]. cbn [r_len]. rewrite isize_max_val. lia.
  - destruct o; cbn [strided_layout small]; rewrite usize_mod_val; lia.
  - intros p Hp. apply strided_layout_stored in Hp. rewrite strided_layout_cell. cbn [r_len].
    now apply span_cell.
Qed.

Lemma view_entry_cell : forall mut o r off d s p,
  entry_cell (view mut o r off d s) p = cell_of_region r (off + (fst p * fst s + snd p * snd s)).
Proof.
  intros. unfold entry_cell, view, cell_of_region. cbn [bm_data bm_layout].
  rewrite slice_container_region, strided_layout_cell. cbn [r_alloc r_lo]. f_equal. lia.
Qed.

(** The part up to the creation of the slice. *)
Lemma from_pointer_strided_unfold : forall m mut o p d s, nonempty d ->
  r_len (p_region p) <= isize_max -> p_off p + span d s <= r_len (p_region p) ->
  from_pointer_strided m mut o p d s =
  from_data m Dynamic Dynamic
    (slice_container mut (mkRegion (r_alloc (p_region p)) (r_lo (p_region p) + p_off p) (span d s)))
    (strided_layout o d s).
Proof.
  intros m mut o p [a b] [s0 s1] [Ha Hb] Hl Hs. rewrite isize_max_val in Hl.
  unfold span in *. cbn [fst snd] in *. unfold from_pointer_strided. cbn [fst snd].
  rewrite usub_ok by lia. cbn [bind]. rewrite usub_ok by lia. cbn [bind].
  assert (E : forall r c, convert_2d_raw m (strided_layout o (a, b) (s0, s1)) r c
              = strided_raw m (s0, s1) r c) by now destruct o.
  rewrite E, strided_raw_ok by (cbn [fst snd]; rewrite usize_mod_val; lia). cbn [bind fst snd].
  rewrite uadd_ok by (rewrite usize_mod_val; lia). cbn [bind].
  replace (s0 * (a - 1) + s1 * (b - 1) + 1) with ((a - 1) * s0 + (b - 1) * s1 + 1) by lia.
  rewrite from_raw_parts_ok by lia. reflexivity.
Qed.

Lemma from_pointer_strided_ok : forall m h mut o p d s,
  slice_ok h (p_region p) -> nonempty d ->
  p_off p + span d s <= r_len (p_region p) -> fst d * snd d <= span d s ->
  from_pointer_strided m mut o p d s = Ok (view mut o (p_region p) (p_off p) d s) /\
  base_valid h (view mut o (p_region p) (p_off p) d s).
Proof.
  intros m h mut o p d s Hr Hd Hs Hc. split; [|now apply view_valid].
  rewrite from_pointer_strided_unfold by (auto; apply Hr).
  destruct Hr as [_ Hl]. rewrite isize_max_val in Hl.
  unfold from_data. rewrite strided_layout_count.
  rewrite umul_ok by (rewrite usize_mod_val; lia). cbn [bind].
  unfold container_number_of_elements. rewrite slice_container_region. cbn [r_len].
  replace (fst d * snd d <=? span d s) with true by lia. reflexivity.
Qed.

Lemma from_pointer_strided_panic : forall mut o p d s,
  r_len (p_region p) <= isize_max -> nonempty d ->
  p_off p + span d s <= r_len (p_region p) -> span d s < fst d * snd d ->
  from_pointer_strided Checked mut o p d s = Panic.
Proof.
  intros mut o p d s Hl Hd Hs Hc. rewrite from_pointer_strided_unfold by auto.
  unfold from_data. rewrite strided_layout_count. unfold umul.
  destruct (fst d * snd d <? usize_mod); cbn [bind overflow]; auto.
  unfold container_number_of_elements. rewrite slice_container_region. cbn [r_len].
  replace (fst d * snd d <=? span d s) with false by lia. reflexivity.
Qed.

Lemma from_pointer_dense_ok : forall m h mut o p d,
  slice_ok h (p_region p) -> p_off p + fst d * snd d <= r_len (p_region p) ->
  exists b, from_pointer m mut o p d = Ok b /\ base_valid h b /\
    bm_layout b = dense_layout o d /\
    c_region (bm_data b) = mkRegion (r_alloc (p_region p)) (r_lo (p_region p) + p_off p) (fst d * snd d) /\
    container_is_mut (bm_data b) = mut.
Proof.
  intros m h mut o p d Hr Hs. pose proof (proj2 Hr) as Hl. rewrite isize_max_val in Hl.
  unfold from_pointer. rewrite umul_ok by (rewrite usize_mod_val; lia). cbn [bind].
  rewrite from_raw_parts_ok by auto. cbn [bind]. unfold from_data.
  assert (E : number_of_elements m (dense_layout o d) = umul m (fst d) (snd d)) by now destruct o.
  rewrite E, umul_ok by (rewrite usize_mod_val; lia). cbn [bind].
  unfold container_number_of_elements. rewrite slice_container_region. cbn [r_len].
  replace (fst d * snd d <=? fst d * snd d) with true by lia. cbn [assert_ bind].
  eexists. split; [reflexivity|]. splits.
  - apply dense_base_valid with (l := dense_layout o d); cbn [bm_data bm_layout]; auto.
    + rewrite slice_container_region. split; [apply region_ok_sub; auto; apply Hr|].
      cbn [r_len]. rewrite isize_max_val. lia.
    + now destruct o.
    + destruct o; cbn [dense_layout small]; rewrite usize_mod_val; lia.
    + rewrite slice_container_region. cbn [r_len]. destruct o; cbn [dense_layout entry_count dim]; lia.
  - reflexivity.
  - cbn [bm_data]. apply slice_container_region.
  - cbn [bm_data]. apply slice_container_mut_is.
Qed.

Lemma c24 : forall m h mut o p d s,
  slice_ok h (p_region p) -> nonempty d ->
  let last := (fst d - 1) * fst s + (snd d - 1) * snd s in
  p_off p + last < r_len (p_region p) ->
  (fst d * snd d <= last + 1 ->
     exists b, from_pointer_strided m mut o p d s = Ok b /\ base_valid h b /\
       dim (bm_layout b) = d /\ row_ordered (bm_layout b) = (match o with ByRow => true | _ => false end) /\
       column_ordered (bm_layout b) = (match o with ByColumn => true | _ => false end) /\
       container_is_mut (bm_data b) = mut /\
       c_region (bm_data b) =
         mkRegion (r_alloc (p_region p)) (r_lo (p_region p) + p_off p) (last + 1) /\
       (forall i j, entry_cell b (i, j) =
          (r_alloc (p_region p), r_lo (p_region p) + p_off p + (i * fst s + j * snd s))) /\
       no_access_ub m h b) /\
  (last + 1 < fst d * snd d -> panics (from_pointer_strided Checked mut o p d s)).
Proof.
  intros m h mut o p d s Hr Hd last Hl. split.
  - intros Hc. destruct (from_pointer_strided_ok m h mut o p d s) as [E Hv]; auto;
      try (unfold span; fold last; lia).
    exists (view mut o (p_region p) (p_off p) d s). splits; auto; try (now destruct o).
    + apply slice_container_mut_is.
    + apply slice_container_region.
    + intros i j. rewrite view_entry_cell. unfold cell_of_region. cbn [fst snd]. f_equal. lia.
    + now apply base_valid_no_ub.
  - intros Hc. apply from_pointer_strided_panic; auto; try apply Hr; unfold span; fold last; lia.
Qed.

(** ** Blocks *)

(** The layouts that dense matrices and blocks of them have. *)
Definition chain (l : layout) : Prop :=
  match l with
  | RowMajor _ | ColumnMajor _ => True
  | ArbitraryStrideRowMajor d s => snd s = 1 /\ snd d <= fst s
  | ArbitraryStrideColumnMajor d s => fst s = 1 /\ fst d <= snd s
  | _ => False
  end.

(** What [stride] returns for them. *)
Definition told_stride (l : layout) : N * N :=
  match block_order l with
  | Some ByColumn => (1, fst (dim l))
  | _ => (snd (dim l), 1)
  end.

Definition order_of (l : layout) : order :=
  match block_order l with Some o => o | None => ByRow end.

Lemma chain_order : forall l, chain l -> block_order l = Some (order_of l).
Proof. intros l H. unfold order_of. destruct l; cbn in *; try contradiction; reflexivity. Qed.

Lemma chain_stride : forall l, chain l -> stride l = Ok (told_stride l).
Proof. intros l H. destruct l; cbn in *; try contradiction; reflexivity. Qed.

Lemma chain_stored : forall l p, chain l -> (stored l p <-> in_range (dim l) p).
Proof.
  intros l p H. split; [intros []; auto|]. intros Hp. split; auto.
  destruct l; cbn in *; try contradiction; discriminate.
Qed.

(** The cell of the last entry bounds what a block inside needs. *)
Lemma chain_span : forall l tl d, chain l -> nonempty d -> inside (dim l) tl d ->
  cell l tl + span d (told_stride l) <= cell l (fst (dim l) - 1, snd (dim l) - 1) + 1 /\
  fst d * snd d <= span d (told_stride l) /\ in_range (dim l) tl.
Proof.
  intros l [t0 t1] [a b] Hc [Ha Hb] [Hr Hcol]. unfold span, told_stride, in_range.
  destruct l as [[A B] | [A B] | n | n | [A B] [s0 s1] | [A B] [s0 s1] | n s | n s | n];
    cbn [chain dim fst snd block_order] in *; try contradiction;
    cbn [cell true_stride fst snd dim].
  - assert (t0 * B + (a - 1) * B <= (A - 1) * B).
    { rewrite <- N.mul_add_distr_r. apply N.mul_le_mono_r. lia. }
    assert (a * b <= (a - 1) * B + b) by nia. lia.
  - assert (t1 * A + (b - 1) * A <= (B - 1) * A).
    { rewrite <- N.mul_add_distr_r. apply N.mul_le_mono_r. lia. }
    assert (a * b <= (b - 1) * A + a) by nia. lia.
  - destruct Hc as [-> Hs].
    assert (t0 * s0 + (a - 1) * B <= (A - 1) * s0).
    { assert ((a - 1) * B <= (a - 1) * s0) by (apply N.mul_le_mono_l; lia).
      assert (t0 * s0 + (a - 1) * s0 <= (A - 1) * s0).
      { rewrite <- N.mul_add_distr_r. apply N.mul_le_mono_r. lia. } lia. }
    assert (a * b <= (a - 1) * B + b) by nia. lia.
  - destruct Hc as [-> Hs].
    assert (t1 * s1 + (b - 1) * A <= (B - 1) * s1).
    { assert ((b - 1) * A <= (b - 1) * s1) by (apply N.mul_le_mono_l; lia).
      assert (t1 * s1 + (b - 1) * s1 <= (B - 1) * s1).
      { rewrite <- N.mul_add_distr_r. apply N.mul_le_mono_r. lia. } lia. }
    assert (a * b <= (b - 1) * A + a) by nia. lia.
Qed.

Definition block_view (mut : bool) (b : base_matrix) (tl d : N * N) : base_matrix :=
  view mut (order_of (bm_layout b)) (c_region (bm_data b)) (cell (bm_layout b) tl) d
       (told_stride (bm_layout b)).

Lemma block_ok : forall m h mut b tl d, base_valid h b -> chain (bm_layout b) ->
  nonempty d -> inside (dim (bm_layout b)) tl d ->
  block m mut b tl d = Ok (block_view mut b tl d) /\
  base_valid h (block_view mut b tl d) /\ chain (bm_layout (block_view mut b tl d)).
Proof.
  intros m h mut b [t0 t1] d Hv Hc Hd Hi.
  destruct (chain_span _ _ _ Hc Hd Hi) as (Hsp & Hn & Ht).
  pose proof Hv as (Hs & Hsm & Hcells).
  assert (Hlast : cell (bm_layout b) (fst (dim (bm_layout b)) - 1, snd (dim (bm_layout b)) - 1)
                  < r_len (c_region (bm_data b))).
  { apply Hcells, chain_stored; auto. destruct Ht. split; cbn [fst snd] in *; lia. }
  unfold block. rewrite chain_order by auto.
  pose proof Hd as [Ha Hb]. pose proof Hi as [Hi0 Hi1]. cbn [fst snd] in Hi0, Hi1.
  assert (Hdim : fst (dim (bm_layout b)) < usize_mod /\ snd (dim (bm_layout b)) < usize_mod).
  { destruct (bm_layout b) as [[A B] | [A B] | n | n | [A B] [s0 s1] | [A B] [s0 s1] | n s | n s | n];
      cbn [small chain dim fst snd] in *; try contradiction; split; nia. }
  cbn [fst snd].
  rewrite uadd_ok by lia. cbn [bind]. rewrite uadd_ok by lia. cbn [bind].
  replace ((t0 + fst d <=? fst (dim (bm_layout b))) && (t1 + snd d <=? snd (dim (bm_layout b))))
    with true by lia. cbn [assert_ bind].
  erewrite base_address by (eauto; apply chain_stored; auto). cbn [bind].
  rewrite ptr_add_ok by (unfold get_pointer, container_get_pointer; cbn [p_off p_region]; lia).
  cbn [bind]. rewrite chain_stride by auto. cbn [bind].
  unfold get_pointer, container_get_pointer. cbn [p_off p_region]. rewrite N.add_0_l.
  destruct (from_pointer_strided_ok m h mut (order_of (bm_layout b))
    (mkPointer (c_region (bm_data b)) (cell (bm_layout b) (t0, t1))) d (told_stride (bm_layout b)))
    as [E Hv']; cbn [p_region p_off]; auto; [lia|].
  cbn [p_region p_off] in *. rewrite E. splits; auto.
  unfold block_view, view, order_of, told_stride. cbn [bm_layout].
  destruct (bm_layout b) as [[A B] | [A B] | n | n | [A B] [s0 s1] | [A B] [s0 s1] | n s | n s | n];
    cbn [chain block_order strided_layout dim fst snd] in *; try contradiction; split; auto; lia.
Qed.

Lemma block_view_cell : forall mut b tl d p,
  entry_cell (block_view mut b tl d) p =
  cell_of_region (c_region (bm_data b))
    (cell (bm_layout b) tl +
     (fst p * fst (told_stride (bm_layout b)) + snd p * snd (told_stride (bm_layout b)))).
Proof. intros. apply view_entry_cell. Qed.

Lemma block_view_dim : forall mut b tl d, dim (bm_layout (block_view mut b tl d)) = d.
Proof. intros. apply strided_layout_dim. Qed.

Lemma block_view_kind : forall mut b tl d, chain (bm_layout b) ->
  index_kind (bm_layout (block_view mut b tl d)) = index_kind (bm_layout b).
Proof.
  intros mut b tl d H. unfold block_view, view, order_of. cbn [bm_layout].
  destruct (bm_layout b); cbn in *; try contradiction; reflexivity.
Qed.

(** Blocks of dense parents are windows. *)
Lemma dense_window : forall mut b tl d, dense_matrix (bm_layout b) = true ->
  window b (block_view mut b tl d) tl d.
Proof.
  intros mut b tl d Hl. split; [apply block_view_dim|]. split.
  - apply block_view_kind. destruct (bm_layout b); cbn in *; try discriminate; auto.
  - intros [r c] _. rewrite block_view_cell. unfold entry_cell, cell_of_region, shift, told_stride.
    f_equal. f_equal.
    destruct (bm_layout b) as [[A B] | [A B] | n | n | e s | e s | n s | n s | n]; cbn [dense_matrix] in *; try discriminate;
      cbn [cell true_stride fst snd dim block_order]; lia.
Qed.

Lemma dense_chain : forall l, dense_matrix l = true -> chain l.
Proof. intros []; cbn; try discriminate; auto. Qed.

Lemma chain_of_dense_dim : forall b, dense_matrix (bm_layout b) = true ->
  has_strides (bm_layout b) = false.
Proof. intros b. destruct (bm_layout b); cbn; try discriminate; auto. Qed.

Lemma dense_block_ok : forall m h mut b tl d, base_valid h b -> dense_matrix (bm_layout b) = true ->
  nonempty d -> inside (dim (bm_layout b)) tl d ->
  exists v, block m mut b tl d = Ok v /\ base_valid h v /\ container_is_mut (bm_data v) = mut /\
            window b v tl d /\ within (c_region (bm_data v)) (c_region (bm_data b)).
Proof.
  intros m h mut b tl d Hv Hl Hd Hi. pose proof (dense_chain _ Hl) as Hc.
  destruct (block_ok m h mut b tl d) as (E & Hv' & _); auto.
  exists (block_view mut b tl d). splits; auto.
  - apply slice_container_mut_is.
  - now apply dense_window.
  - unfold block_view, view. cbn [bm_data]. rewrite slice_container_region.
    split; [reflexivity|]. cbn [r_lo r_len]. split; [lia|].
    destruct (chain_span _ _ _ Hc Hd Hi) as (Hsp & _ & Ht).
    destruct Hv as (_ & _ & Hcells).
    specialize (Hcells (fst (dim (bm_layout b)) - 1, snd (dim (bm_layout b)) - 1)).
    rewrite chain_stored in Hcells by auto.
    destruct Ht. unfold in_range in Hcells. cbn [fst snd] in Hcells. lia.
Qed.

Lemma window_in_range : forall D tl d p, inside D tl d -> in_range d p -> in_range D (shift tl p).
Proof. intros [A B] [t0 t1] [a b] [r c] [] []. unfold in_range, shift in *. cbn [fst snd] in *. lia. Qed.

Lemma dense_stored : forall l p, dense_matrix l = true -> (stored l p <-> in_range (dim l) p).
Proof. intros l p H. apply chain_stored. now apply dense_chain. Qed.

(** A valid window on a dense parent reads the parent's entries. *)
Lemma window_stored : forall h a b tl d p, window a b tl d -> base_valid h b ->
  dense_matrix (bm_layout a) = true -> (stored (bm_layout b) p <-> in_range d p).
Proof.
  intros h a b tl d p (Hd & Hk & _) Hb Ha. unfold stored. rewrite Hd.
  split; [tauto|]. intros Hp. split; auto.
  rewrite upper_triangular_kind, Hk. destruct (bm_layout a); cbn in *; discriminate.
Qed.

Lemma window_get : forall m h a b tl d i j, base_valid h a -> base_valid h b ->
  dense_matrix (bm_layout a) = true -> window a b tl d -> inside (dim (bm_layout a)) tl d ->
  in_range d (i, j) ->
  get m h (MBase b) i j = get m h (MBase a) (fst tl + i) (snd tl + j).
Proof.
  intros m h a b tl d i j Ha Hb Hl Hw Hi Hp.
  destruct (get_stored m h (MBase b) i j Hb) as (v & -> & Ev).
  { cbn [mat_layout]. now apply (window_stored h a b tl d). }
  destruct (get_stored m h (MBase a) (fst tl + i) (snd tl + j) Ha) as (w & -> & Ew).
  { cbn [mat_layout]. apply dense_stored; auto.
    apply (window_in_range _ _ _ (i, j) Hi Hp). }
  f_equal. unfold entry in *. cbn [value] in *. unfold base_entry in *.
  destruct Hw as (_ & _ & Hc). rewrite (Hc _ Hp) in Ev. unfold shift in Ev. cbn [fst snd] in Ev. congruence.
Qed.

Lemma c17 : forall m h a tl d, base_valid h a -> dense_matrix (bm_layout a) = true ->
  nonempty d -> inside (dim (bm_layout a)) tl d ->
  exists b, block m false a tl d = Ok b /\ base_valid h b /\ dim (bm_layout b) = d /\
    row_ordered (bm_layout b) = row_ordered (bm_layout a) /\
    column_ordered (bm_layout b) = column_ordered (bm_layout a) /\
    (forall i j, in_range d (i, j) ->
       get m h (MBase b) i j = get m h (MBase a) (fst tl + i) (snd tl + j)) /\
    (forall i j, in_range d (i, j) -> row_ordered (bm_layout a) = true ->
       get1d m h (MBase b) (i * snd d + j) = get m h (MBase a) (fst tl + i) (snd tl + j)) /\
    (forall i j, in_range d (i, j) -> column_ordered (bm_layout a) = true ->
       get1d m h (MBase b) (j * fst d + i) = get m h (MBase a) (fst tl + i) (snd tl + j)).
Proof.
  intros m h a tl d Hv Hl Hd Hi.
  destruct (dense_block_ok m h false a tl d Hv Hl Hd Hi) as (b & E & Hb & _ & Hw & _).
  exists b. splits; auto.
  - apply Hw.
  - destruct Hw as (_ & Hk & _). destruct (bm_layout a), (bm_layout b); cbn in *; congruence.
  - destruct Hw as (_ & Hk & _). destruct (bm_layout a), (bm_layout b); cbn in *; congruence.
  - intros i j Hp. now apply window_get with d.
  - intros i j Hp Hr. rewrite <- (window_get m h a b tl d i j); auto.
    apply (c05_get m h (MBase b)); [exact Hb| |].
    + now apply (window_stored h a b tl d).
    + cbn [mat_layout]. rewrite convert_2d_1d_ok; [|apply Hb|now apply (window_stored h a b tl d)].
      f_equal. destruct Hw as (Hdim & Hk & _). rewrite <- Hdim.
      destruct (bm_layout a), (bm_layout b); cbn in *; congruence.
  - intros i j Hp Hr. rewrite <- (window_get m h a b tl d i j); auto.
    apply (c05_get m h (MBase b)); [exact Hb| |].
    + now apply (window_stored h a b tl d).
    + cbn [mat_layout]. rewrite convert_2d_1d_ok; [|apply Hb|now apply (window_stored h a b tl d)].
      f_equal. destruct Hw as (Hdim & Hk & _). rewrite <- Hdim.
      destruct (bm_layout a), (bm_layout b); cbn in *; congruence.
Qed.

Lemma window_entry : forall h a b tl d p, window a b tl d -> in_range d p ->
  base_entry h b p = base_entry h a (shift tl p).
Proof. intros h a b tl d p (_ & _ & Hc) Hp. unfold base_entry. now rewrite (Hc p Hp). Qed.

Lemma window_set : forall m h a b tl d i j v, base_valid h a -> base_valid h b ->
  dense_matrix (bm_layout a) = true -> container_is_mut (bm_data b) = true ->
  window a b tl d -> inside (dim (bm_layout a)) tl d -> in_range d (i, j) ->
  exists h', set m h (MBase b) i j v = Ok h' /\
    h' = hset h (fst (entry_cell b (i, j))) (snd (entry_cell b (i, j))) v /\
    base_entry h' a (shift tl (i, j)) = Some v /\
    (forall q, stored (bm_layout a) q -> q <> shift tl (i, j) ->
       base_entry h' a q = base_entry h a q).
Proof.
  intros m h a b tl d i j v Ha Hb Hl Hm Hw Hi Hp.
  destruct (set_stored m h (MBase b) b i j v Hb) as (h' & E & Eh & _).
  { cbn [writes_to]. now rewrite Hm. }
  { cbn [mat_layout]. now apply (window_stored h a b tl d). }
  exists h'. splits; auto.
  - subst h'. destruct Hw as (_ & _ & Hc). rewrite (Hc _ Hp).
    assert (Hst : stored (bm_layout a) (shift tl (i, j))).
    { apply dense_stored; auto. now apply window_in_range with d. }
    rewrite base_entry_hset; auto using distinct_dense, chain_of_dense_dim.
    now replace ((fst (shift tl (i, j)) =? fst (shift tl (i, j))) &&
             (snd (shift tl (i, j)) =? snd (shift tl (i, j)))) with true by lia.
  - intros q Hq Hne. subst h'. destruct Hw as (_ & _ & Hc). rewrite (Hc _ Hp).
    assert (Hst : stored (bm_layout a) (shift tl (i, j))).
    { apply dense_stored; auto. now apply window_in_range with d. }
    rewrite base_entry_hset; auto using distinct_dense, chain_of_dense_dim.
    destruct q as [q0 q1]. destruct ((fst (q0, q1) =? fst (shift tl (i, j))) &&
             (snd (q0, q1) =? snd (shift tl (i, j)))) eqn:Eq; auto.
    exfalso. apply Hne. unfold shift in *. cbn [fst snd] in *. f_equal; lia.
Qed.

Lemma c18 : forall m h a tl d i j v, base_valid h a -> dense_matrix (bm_layout a) = true ->
  nonempty d -> inside (dim (bm_layout a)) tl d -> in_range d (i, j) ->
  exists b h', block m true a tl d = Ok b /\ set m h (MBase b) i j v = Ok h' /\
    base_entry h' a (fst tl + i, snd tl + j) = Some v /\
    (forall q, stored (bm_layout a) q -> q <> (fst tl + i, snd tl + j) ->
       base_entry h' a q = base_entry h a q) /\
    changes_only (fun q => q = entry_cell a (fst tl + i, snd tl + j)) h h'.
Proof.
  intros m h a tl d i j v Hv Hl Hd Hi Hp.
  destruct (dense_block_ok m h true a tl d Hv Hl Hd Hi) as (b & E & Hb & Hm & Hw & _).
  destruct (window_set m h a b tl d i j v) as (h' & Es & Eh & H1 & H2); auto.
  exists b, h'. splits; auto. subst h'.
  destruct Hw as (_ & _ & Hc). specialize (Hc _ Hp). unfold shift in Hc. cbn [fst snd] in Hc.
  rewrite Hc. rewrite (surjective_pairing (entry_cell a _)) at 1. apply hset_changes_only.
Qed.

(** ** Blocks of blocks *)

Lemma block_view_lo : forall mut b tl d p,
  entry_cell (block_view mut b tl d) p =
  (r_alloc (c_region (bm_data b)),
   r_lo (c_region (bm_data b)) + cell (bm_layout b) tl +
     (fst p * fst (told_stride (bm_layout b)) + snd p * snd (told_stride (bm_layout b)))).
Proof. intros. rewrite block_view_cell. unfold cell_of_region. f_equal. lia. Qed.

Lemma c19 : forall m h mut1 mut2 mut3 a o1 d1 o2 d2,
  base_valid h a -> dense_matrix (bm_layout a) = true ->
  nonempty d1 -> inside (dim (bm_layout a)) o1 d1 -> nonempty d2 -> inside d1 o2 d2 ->
  exists b1 b2 b3,
    block m mut1 a o1 d1 = Ok b1 /\ block m mut2 b1 o2 d2 = Ok b2 /\
    block m mut3 a (shift o1 o2) d2 = Ok b3 /\
    base_valid h b2 /\ dim (bm_layout b2) = d2 /\ dim (bm_layout b3) = d2 /\
    ((forall p, in_range d2 p -> entry_cell b2 p = entry_cell b3 p) <->
     (row_ordered (bm_layout a) = true /\ (fst d2 = 1 \/ snd d1 = snd (dim (bm_layout a))) \/
      column_ordered (bm_layout a) = true /\ (snd d2 = 1 \/ fst d1 = fst (dim (bm_layout a))))).
Proof.
  intros m h mut1 mut2 mut3 a o1 d1 o2 d2 Hv Hl Hd1 Hi1 Hd2 Hi2.
  destruct (block_ok m h mut1 a o1 d1) as (E1 & V1 & C1); auto using dense_chain.
  destruct (block_ok m h mut2 (block_view mut1 a o1 d1) o2 d2) as (E2 & V2 & C2); auto.
  { now rewrite block_view_dim. }
  assert (Hi3 : inside (dim (bm_layout a)) (shift o1 o2) d2).
  { unfold inside, shift in *. cbn [fst snd]. lia. }
  destruct (block_ok m h mut3 a (shift o1 o2) d2) as (E3 & V3 & _); auto using dense_chain.
  do 3 eexists. split; [exact E1|]. split; [exact E2|]. split; [exact E3|].
  split; [exact V2|]. split; [apply block_view_dim|]. split; [apply block_view_dim|].
  assert (X : forall p, entry_cell (block_view mut2 (block_view mut1 a o1 d1) o2 d2) p =
                        entry_cell (block_view mut3 a (shift o1 o2) d2) p <->
    (row_ordered (bm_layout a) = true /\ fst p * snd d1 = fst p * snd (dim (bm_layout a)) \/
     column_ordered (bm_layout a) = true /\ snd p * fst d1 = snd p * fst (dim (bm_layout a)))).
  { intros [i j]. rewrite !block_view_lo.
    unfold block_view at 1 2 3 4 5, view. cbn [bm_data bm_layout]. rewrite slice_container_region.
    cbn [r_alloc r_lo]. rewrite !strided_layout_cell. unfold told_stride, order_of, shift.
    destruct (bm_layout a) as [[A B] | [A B] | n | n | e s | e s | n s | n s | n];
      cbn [dense_matrix] in Hl; try discriminate;
      cbn [block_order strided_layout row_ordered column_ordered dim fst snd cell true_stride].
    - split; intros H.
      + left. split; auto. injection H as H. lia.
      + destruct H as [[_ H] | [H _]]; [|discriminate]. f_equal. lia.
    - split; intros H.
      + right. split; auto. injection H as H. lia.
      + destruct H as [[H _] | [_ H]]; [discriminate|]. f_equal. lia. }
  split.
  - intros H. destruct Hd2 as [Ha Hb]. pose proof (H (fst d2 - 1, snd d2 - 1)) as H1.
    apply X in H1; [|split; cbn [fst snd]; lia]. cbn [fst snd] in H1.
    destruct H1 as [[Ho H1] | [Ho H1]]; [left | right]; (split; [exact Ho|]).
    + destruct (N.eq_dec (fst d2) 1); auto. right. apply N.mul_cancel_l with (p := fst d2 - 1); auto. lia.
    + destruct (N.eq_dec (snd d2) 1); auto. right. apply N.mul_cancel_l with (p := snd d2 - 1); auto. lia.
  - intros H [i j] [Hi Hj]. cbn [fst snd] in *. apply X. cbn [fst snd].
    destruct H as [[Ho [H | H]] | [Ho [H | H]]].
    + left. split; auto. replace i with 0 by lia. lia.
    + left. split; auto. now rewrite H.
    + right. split; auto. replace j with 0 by lia. lia.
    + right. split; auto. now rewrite H.
Qed.

(** ** Acceptance *)

Lemma block_checked_inv : forall mut b tl d v, block Checked mut b tl d = Ok v ->
  nonempty d /\ inside (dim (bm_layout b)) tl d.
Proof.
  intros mut b tl d v E. unfold block in E.
  destruct (block_order (bm_layout b)) as [o|]; [|discriminate].
  unfold from_pointer_strided in E. inv_arith. unfold nonempty, inside.
  match goal with H : _ && _ = true |- _ => apply andb_prop in H as [? ?] end. lia.
Qed.

Lemma block_outside_panics : forall m mut b tl d o, block_order (bm_layout b) = Some o ->
  (m = Checked \/ (fst tl + fst d < usize_mod /\ snd tl + snd d < usize_mod)) ->
  ~ inside (dim (bm_layout b)) tl d -> block m mut b tl d = Panic.
Proof.
  intros m mut b tl d o Ho Hm Hi. unfold block. rewrite Ho.
  destruct Hm as [-> | [H0 H1]].
  - unfold uadd. destruct (fst tl + fst d <? usize_mod); cbn [bind overflow]; auto.
    destruct (snd tl + snd d <? usize_mod); cbn [bind overflow]; auto.
    destruct ((fst tl + fst d <=? fst (dim (bm_layout b))) && (snd tl + snd d <=? snd (dim (bm_layout b))))
      eqn:E; auto.
    exfalso. apply Hi. unfold inside. lia.
  - rewrite !uadd_ok by auto. cbn [bind].
    destruct ((fst tl + fst d <=? fst (dim (bm_layout b))) && (snd tl + snd d <=? snd (dim (bm_layout b))))
      eqn:E; auto.
    exfalso. apply Hi. unfold inside. lia.
Qed.

Lemma bind_panic : forall (A B : Type) (x : outcome A) (f : A -> outcome B),
  x <> UB -> (forall a, x = Ok a -> f a = Panic) -> bind x f = Panic.
Proof. intros A B [a | |] f Hu Hf; cbn; auto. congruence. Qed.

Lemma chain_raw_checked : forall l r c a, chain l ->
  convert_2d_raw Checked l r c = Ok a -> a = cell l (r, c).
Proof.
  intros l r c a Hl E. destruct l as [[A B] | [A B] | n | n | e s | e s | n s | n s | n]; cbn in Hl; try contradiction;
    cbn [convert_2d_raw] in E; unfold row_major_2d_1d, column_major_2d_1d, strided_raw in E; cbn [fst snd] in E;
    inv_arith; cbn [cell true_stride fst snd]; lia.
Qed.

Lemma convert_2d_raw_not_ub : forall m l r c, convert_2d_raw m l r c <> UB.
Proof.
  intros m l r c.
  destruct l; cbn [convert_2d_raw];
    unfold row_major_2d_1d, column_major_2d_1d, strided_raw, upper_triangular_2d_1d;
    repeat (apply bind_not_ub; [auto with no_ub|]; intros); auto with no_ub; discriminate.
Qed.

Lemma block_empty_panics : forall mut b tl d, chain (bm_layout b) ->
  ~ nonempty d -> cell (bm_layout b) tl <= r_len (c_region (bm_data b)) ->
  block Checked mut b tl d = Panic.
Proof.
  intros mut b [t0 t1] d Hl Hd Hc. unfold block. rewrite chain_order by assumption.
  apply bind_panic; auto with no_ub. intros r _. apply bind_panic; auto with no_ub. intros c _.
  apply bind_panic; auto with no_ub. intros _ _. cbn [fst snd].
  apply bind_panic; auto using convert_2d_raw_not_ub. intros a Ha.
  apply chain_raw_checked in Ha; auto. subst a.
  rewrite ptr_add_ok by (unfold get_pointer, container_get_pointer; cbn [p_off p_region]; lia).
  cbn [bind]. rewrite chain_stride by assumption. cbn [bind].
  unfold from_pointer_strided. unfold usub.
  destruct (1 <=? fst d) eqn:E0; cbn [bind overflow]; auto.
  destruct (1 <=? snd d) eqn:E1; cbn [bind overflow]; auto.
  exfalso. apply Hd. unfold nonempty. lia.
Qed.

Lemma nonempty_dec : forall d, nonempty d \/ ~ nonempty d.
Proof.
  intros [a b]. unfold nonempty. cbn [fst snd].
  destruct (N.leb_spec 1 a), (N.leb_spec 1 b); lia.
Qed.

Lemma inside_dec : forall D tl d, inside D tl d \/ ~ inside D tl d.
Proof.
  intros D tl d. unfold inside.
  destruct (N.leb_spec (fst tl + fst d) (fst D)), (N.leb_spec (snd tl + snd d) (snd D)); lia.
Qed.

Lemma c20_checked : forall h mut b tl d, base_valid h b -> dense_matrix (bm_layout b) = true ->
  (returns (block Checked mut b tl d) <-> nonempty d /\ inside (dim (bm_layout b)) tl d) /\
  (~ (nonempty d /\ inside (dim (bm_layout b)) tl d) ->
     nonempty d \/ cell (bm_layout b) tl <= r_len (c_region (bm_data b)) ->
     panics (block Checked mut b tl d)).
Proof.
  intros h mut b tl d Hv Hl. split; [split|].
  - intros (v & E). now apply block_checked_inv in E.
  - intros [Hd Hi]. destruct (block_ok Checked h mut b tl d) as (E & _); auto using dense_chain.
    eexists; eauto.
  - intros Hn Hc. destruct (inside_dec (dim (bm_layout b)) tl d) as [Hi | Hi].
    + destruct (nonempty_dec d) as [Hd | Hd]; [tauto|].
      apply block_empty_panics; auto using dense_chain. tauto.
    + eapply block_outside_panics; eauto. apply chain_order. now apply dense_chain.
Qed.

Lemma c20_checked_full : forall h mut b tl d, base_valid h b -> dense_matrix (bm_layout b) = true ->
  (returns (block Checked mut b tl d) <-> nonempty d /\ inside (dim (bm_layout b)) tl d) /\
  (forall v, block Checked mut b tl d = Ok v ->
     base_valid h v /\ within (c_region (bm_data v)) (c_region (bm_data b))) /\
  (~ (nonempty d /\ inside (dim (bm_layout b)) tl d) ->
     nonempty d \/ cell (bm_layout b) tl <= r_len (c_region (bm_data b)) ->
     panics (block Checked mut b tl d)).
Proof.
  intros h mut b tl d Hv Hl. destruct (c20_checked h mut b tl d Hv Hl) as [H1 H2]. splits; auto.
  intros v E. destruct (block_checked_inv _ _ _ _ _ E) as [Hd Hi].
  destruct (dense_block_ok Checked h mut b tl d Hv Hl Hd Hi) as (v' & E' & Hv' & _ & _ & Hw).
  rewrite E in E'. injection E' as <-. auto.
Qed.

Lemma c20_release : forall h mut b tl d, base_valid h b -> dense_matrix (bm_layout b) = true ->
  nonempty d -> fst tl + fst d < usize_mod -> snd tl + snd d < usize_mod ->
  (inside (dim (bm_layout b)) tl d -> returns (block Wrapping mut b tl d)) /\
  (~ inside (dim (bm_layout b)) tl d -> panics (block Wrapping mut b tl d)).
Proof.
  intros h mut b tl d Hv Hl Hd H0 H1. split; intros Hi.
  - destruct (block_ok Wrapping h mut b tl d) as (E & _); auto using dense_chain. eexists; eauto.
  - eapply block_outside_panics; eauto. apply chain_order. now apply dense_chain.
Qed.

(** ** Splitting *)

Definition quarters (b : base_matrix) (s : N * N) : base_matrix * base_matrix * base_matrix * base_matrix :=
  let q k := block_view true b (quarter_origin s k) (quarter_dim (dim (bm_layout b)) s k) in
  (q Q0, q Q1, q Q2, q Q3).

Lemma pick_quarters : forall b s k,
  pick (quarters b s) k = block_view true b (quarter_origin s k) (quarter_dim (dim (bm_layout b)) s k).
Proof. intros b s []; reflexivity. Qed.

Lemma quarter_inside : forall D s k, interior D s ->
  nonempty (quarter_dim D s k) /\ inside D (quarter_origin s k) (quarter_dim D s k).
Proof.
  intros [A B] [s0 s1] k (H1 & H2 & H3 & H4). unfold nonempty, inside.
  destruct k; cbn [quarter_dim quarter_origin fst snd] in *; lia.
Qed.

Lemma row_major_dense : forall b D, bm_layout b = RowMajor D -> dense_matrix (bm_layout b) = true.
Proof. intros b D ->. reflexivity. Qed.

Lemma ptr_offset_ok : forall p n, n <= isize_max -> p_off p + n <= r_len (p_region p) ->
  ptr_offset p (as_isize n) = Ok (mkPointer (p_region p) (p_off p + n)).
Proof.
  intros p n Hn H. unfold as_isize. replace (n <=? isize_max) with true by lia.
  fold (ptr_add p n). now apply ptr_add_ok.
Qed.

Lemma split_ok : forall m h b D s, base_valid h b -> bm_layout b = RowMajor D -> interior D s ->
  split_in_four_mut m b s = Ok (quarters b s) /\ forall k, base_valid h (pick (quarters b s) k).
Proof.
  intros m h b D s Hv Hl Hs. pose proof (row_major_dense b D Hl) as Hdense.
  assert (HD : dim (bm_layout b) = D) by now rewrite Hl.
  assert (Hq : forall k,
    convert_2d_raw m (bm_layout b) (fst (quarter_origin s k)) (snd (quarter_origin s k)) =
      Ok (cell (bm_layout b) (quarter_origin s k)) /\
    ptr_offset (get_pointer b) (as_isize (cell (bm_layout b) (quarter_origin s k))) =
      Ok (mkPointer (c_region (bm_data b)) (cell (bm_layout b) (quarter_origin s k))) /\
    from_pointer_strided m true ByRow
      (mkPointer (c_region (bm_data b)) (cell (bm_layout b) (quarter_origin s k)))
      (quarter_dim D s k) (snd D, 1) =
      Ok (pick (quarters b s) k) /\ base_valid h (pick (quarters b s) k)).
  { intros k. destruct (quarter_inside D s k Hs) as [Hd Hi0].
    assert (Hi : inside (dim (bm_layout b)) (quarter_origin s k) (quarter_dim D s k)) by now rewrite HD.
    destruct (chain_span (bm_layout b) _ _ (dense_chain _ Hdense) Hd Hi) as (Hsp & Hn & Ht).
    pose proof Hv as ([Hr Hlen] & Hsm & Hcells).
    assert (Hlast : cell (bm_layout b) (fst (dim (bm_layout b)) - 1, snd (dim (bm_layout b)) - 1)
                    < r_len (c_region (bm_data b))).
    { apply Hcells, dense_stored; auto. destruct Ht. split; cbn [fst snd] in *; lia. }
    assert (Hspan : 1 <= span (quarter_dim D s k) (told_stride (bm_layout b))) by apply span_pos.
    splits.
    - rewrite (base_address m h); rewrite <- ?surjective_pairing; auto. now apply dense_stored.
    - rewrite ptr_offset_ok; unfold get_pointer, container_get_pointer; cbn [p_off p_region]; try lia.
      now rewrite N.add_0_l.
    - rewrite pick_quarters. rewrite HD.
      assert (Et : told_stride (bm_layout b) = (snd D, 1)) by now rewrite Hl.
      destruct (from_pointer_strided_ok m h true ByRow
        (mkPointer (c_region (bm_data b)) (cell (bm_layout b) (quarter_origin s k)))
        (quarter_dim D s k) (snd D, 1)) as [E _]; cbn [p_region p_off]; rewrite <- ?Et; auto; try lia.
      { split; auto. }
      cbn [p_region p_off] in E. rewrite <- Et in E. rewrite E. unfold block_view, order_of. now rewrite Hl.
    - rewrite pick_quarters, HD. apply (block_ok m h true b); auto using dense_chain. }
  split; [|intros k; apply Hq].
  pose proof (Hq Q0) as (A0 & B0 & C0 & _). pose proof (Hq Q1) as (A1 & B1 & C1 & _).
  pose proof (Hq Q2) as (A2 & B2 & C2 & _). pose proof (Hq Q3) as (A3 & B3 & C3 & _).
  destruct Hs as (H1 & H2 & H3 & H4). unfold split_in_four_mut. rewrite HD.
  assert (Est : stride (bm_layout b) = Ok (snd D, 1)) by now rewrite Hl.
  rewrite Est. cbn [bind].
  rewrite !usub_ok by lia. cbn [bind].
  cbn [quarter_origin fst snd] in A0, A1, A2, A3.
  rewrite A0, A1, A2, A3. cbn [bind].
  cbn [quarter_origin quarter_dim] in B0, B1, B2, B3, C0, C1, C2, C3.
  rewrite B0. cbn [bind]. rewrite C0. cbn [bind].
  rewrite B1. cbn [bind]. rewrite C1. cbn [bind].
  rewrite B2. cbn [bind]. rewrite C2. cbn [bind].
  rewrite B3. cbn [bind]. rewrite C3. cbn [bind]. reflexivity.
Qed.

Lemma quarter_of : forall D s p, interior D s -> in_range D p ->
  exists k q, in_range (quarter_dim D s k) q /\ shift (quarter_origin s k) q = p.
Proof.
  intros [A B] [s0 s1] [r c] (H1 & H2 & H3 & H4) [Hr Hc]. cbn [fst snd] in *.
  unfold in_range, shift.
  destruct (N.ltb_spec r s0), (N.ltb_spec c s1).
  - exists Q0, (r, c). cbn [quarter_dim quarter_origin fst snd]. split; [lia | f_equal; lia].
  - exists Q1, (r, c - s1). cbn [quarter_dim quarter_origin fst snd]. split; [lia | f_equal; lia].
  - exists Q2, (r - s0, c). cbn [quarter_dim quarter_origin fst snd]. split; [lia | f_equal; lia].
  - exists Q3, (r - s0, c - s1). cbn [quarter_dim quarter_origin fst snd]. split; [lia | f_equal; lia].
Qed.

Lemma quarter_unique : forall D s k q k' q', in_range (quarter_dim D s k) q ->
  in_range (quarter_dim D s k') q' ->
  shift (quarter_origin s k) q = shift (quarter_origin s k') q' -> k = k' /\ q = q'.
Proof.
  intros [A B] [s0 s1] k [r c] k' [r' c'] [H1 H2] [H3 H4] E. unfold shift in E.
  destruct k, k'; cbn [quarter_dim quarter_origin fst snd] in *; injection E as E1 E2;
    try (exfalso; lia); split; auto; f_equal; lia.
Qed.

Lemma entry_cell_inj : forall b p q, distinct_cells (bm_layout b) ->
  stored (bm_layout b) p -> stored (bm_layout b) q -> entry_cell b p = entry_cell b q -> p = q.
Proof.
  intros b p q Hd Hp Hq E. unfold entry_cell, cell_of_region in E. injection E as E.
  apply N.add_cancel_l in E. auto.
Qed.

Lemma quarter_window : forall m h b D s k, base_valid h b -> bm_layout b = RowMajor D -> interior D s ->
  split_in_four_mut m b s = Ok (quarters b s) /\
  window b (pick (quarters b s) k) (quarter_origin s k) (quarter_dim D s k) /\
  base_valid h (pick (quarters b s) k) /\ container_is_mut (bm_data (pick (quarters b s) k)) = true /\
  inside (dim (bm_layout b)) (quarter_origin s k) (quarter_dim D s k).
Proof.
  intros m h b D s k Hv Hl Hs. destruct (split_ok m h b D s Hv Hl Hs) as [E Hb]. splits; auto.
  - rewrite pick_quarters, Hl. apply dense_window. now rewrite Hl.
  - rewrite pick_quarters. apply slice_container_mut_is.
  - rewrite Hl. now apply quarter_inside.
Qed.

Lemma c21 : forall m h b D s, base_valid h b -> bm_layout b = RowMajor D -> interior D s ->
  exists four, split_in_four_mut m b s = Ok four /\
    (forall k, base_valid h (pick four k) /\ dim (bm_layout (pick four k)) = quarter_dim D s k /\
       row_ordered (bm_layout (pick four k)) = true /\
       container_is_mut (bm_data (pick four k)) = true) /\
    (forall p, in_range D p ->
       exists k q, in_range (quarter_dim D s k) q /\ shift (quarter_origin s k) q = p /\
         entry_cell (pick four k) q = entry_cell b p /\
         get m h (MBase (pick four k)) (fst q) (snd q) = get m h (MBase b) (fst p) (snd p) /\
         forall k' q', in_range (quarter_dim D s k') q' ->
           entry_cell (pick four k') q' = entry_cell b p -> k' = k /\ q' = q).
Proof.
  intros m h b D s Hv Hl Hs. exists (quarters b s).
  pose proof (fun k => quarter_window m h b D s k Hv Hl Hs) as W.
  split; [apply (W Q0)|]. split.
  - intros k. destruct (W k) as (_ & Hw & Hb & Hm & _). splits; auto; [apply Hw|].
    destruct Hw as (_ & Hk & _). rewrite Hl in Hk.
    destruct (bm_layout (pick (quarters b s) k)); cbn in *; congruence.
  - intros p Hp. destruct (quarter_of D s p Hs Hp) as (k & q & Hq & Ep). exists k, q.
    destruct (W k) as (_ & Hw & Hb & Hm & Hi). splits; auto.
    + destruct Hw as (_ & _ & Hc). rewrite (Hc q Hq). now rewrite Ep.
    + destruct q as [q0 q1]. rewrite <- Ep. unfold shift. cbn [fst snd].
      apply window_get with (quarter_dim D s k); auto. now rewrite Hl.
    + intros k' q' Hq' E'. destruct (W k') as (_ & (_ & _ & Hc') & _ & _ & Hi').
      rewrite (Hc' q' Hq') in E'. apply entry_cell_inj in E'.
      * rewrite <- Ep in E'. now apply quarter_unique with D s.
      * apply distinct_dense. now rewrite Hl.
      * apply dense_stored; [now rewrite Hl|]. now apply window_in_range with (quarter_dim D s k').
      * apply dense_stored; [now rewrite Hl|]. now rewrite Hl.
Qed.

(** Windows on dense parents give different entries different cells. *)
Lemma window_distinct : forall h a b tl d, base_valid h b -> dense_matrix (bm_layout a) = true ->
  window a b tl d -> inside (dim (bm_layout a)) tl d -> distinct_cells (bm_layout b).
Proof.
  intros h a b tl d Hb Hl Hw Hi p q Hp Hq E.
  apply (window_stored h a b tl d) in Hp; auto. apply (window_stored h a b tl d) in Hq; auto.
  assert (X : entry_cell b p = entry_cell b q) by (unfold entry_cell; now rewrite E).
  destruct Hw as (_ & _ & Hc). rewrite (Hc p Hp), (Hc q Hq) in X. apply entry_cell_inj in X.
  - destruct p, q. unfold shift in X. cbn [fst snd] in X. injection X as X1 X2. f_equal; lia.
  - apply distinct_dense. now apply chain_of_dense_dim.
  - apply dense_stored; auto. now apply window_in_range with d.
  - apply dense_stored; auto. now apply window_in_range with d.
Qed.

Lemma c22 : forall m b D s ws h, base_valid h b -> bm_layout b = RowMajor D -> interior D s ->
  exists four h', split_in_four_mut m b s = Ok four /\ attempt_quarters m four h ws = Ok h' /\
    (forall k q, in_range (quarter_dim D s k) q ->
       base_entry h' b (shift (quarter_origin s k) q) = base_entry h' (pick four k) q /\
       base_entry h' (pick four k) q =
       match last_write (bm_layout (pick four k)) (writes_of k ws) q with
       | Some v => Some v
       | None => base_entry h (pick four k) q
       end) /\
    changes_only (fun c => exists k q, in_range (quarter_dim D s k) q /\
       last_write (bm_layout (pick four k)) (writes_of k ws) q <> None /\
       c = entry_cell (pick four k) q) h h'.
Proof.
  intros m b D s ws h Hv Hl Hs. exists (quarters b s).
  enough (X : exists h', attempt_quarters m (quarters b s) h ws = Ok h' /\
    (forall k q, in_range (quarter_dim D s k) q ->
       base_entry h' (pick (quarters b s) k) q =
       match last_write (bm_layout (pick (quarters b s) k)) (writes_of k ws) q with
       | Some v => Some v
       | None => base_entry h (pick (quarters b s) k) q
       end) /\
    changes_only (fun c => exists k q, in_range (quarter_dim D s k) q /\
       last_write (bm_layout (pick (quarters b s) k)) (writes_of k ws) q <> None /\
       c = entry_cell (pick (quarters b s) k) q) h h').
  { destruct X as (h' & E & X1 & X2). exists h'. splits; auto.
    - apply (quarter_window m h b D s Q0); auto.
    - intros k q Hq. split; [|now apply X1]. symmetry.
      destruct (quarter_window m h b D s k Hv Hl Hs) as (_ & Hw & _).
      now apply window_entry with (1 := Hw). }
  revert h Hv. induction ws as [|[k w] ws IH]; intros h Hv; cbn [attempt_quarters].
  - exists h. splits; auto. apply changes_only_refl.
  - pose proof (fun k => quarter_window m h b D s k Hv Hl Hs) as W.
    assert (Hdense : dense_matrix (bm_layout b) = true) by now rewrite Hl.
    destruct (W k) as (_ & Hw & Hb & Hm & Hi).
    destruct (attempt_spec m (MBase (pick (quarters b s) k)) (pick (quarters b s) k) h w)
      as (h1 & -> & He & Hc & Hf).
    + exact Hb.
    + cbn [writes_to]. now rewrite Hm.
    + cbn [mat_layout]. now apply (window_distinct h b _ _ _ Hb Hdense Hw).
    + cbn [bind]. destruct (IH h1) as (h2 & E2 & F2 & C2).
      { now apply base_valid_extends with h. }
      exists h2. split; [exact E2|].
      assert (Other : forall k' q', in_range (quarter_dim D s k') q' -> k' <> k ->
        base_entry h1 (pick (quarters b s) k') q' = base_entry h (pick (quarters b s) k') q').
      { intros k' q' Hq' Hne. destruct (W k') as (_ & Hw' & Hb' & _ & Hi').
        unfold base_entry. apply Hc. rewrite <- surjective_pairing.
        intros (p & Hp & _ & Ec). cbn [mat_layout] in Hp.
        apply (window_stored h b _ _ _ p Hw Hb Hdense) in Hp.
        destruct Hw as (_ & _ & Hc1). destruct Hw' as (_ & _ & Hc2).
        rewrite (Hc1 p Hp), (Hc2 q' Hq') in Ec. apply entry_cell_inj in Ec.
        - apply Hne. now apply (quarter_unique D s k' q' k p).
        - apply distinct_dense. now rewrite Hl.
        - apply dense_stored; auto. now apply window_in_range with (quarter_dim D s k').
        - apply dense_stored; auto. now apply window_in_range with (quarter_dim D s k). }
      assert (Cons : forall k', writes_of k' ((k, w) :: ws) =
                if quarter_eqb k' k then w :: writes_of k' ws else writes_of k' ws).
      { intros k'. unfold writes_of. cbn [filter fst]. now destruct (quarter_eqb k' k). }
      assert (Qeq : forall k', quarter_eqb k' k = true <-> k' = k).
      { intros k'. destruct k', k; cbn; split; congruence. }
      split.
      * intros k' q Hq. rewrite F2 by auto. rewrite Cons.
        destruct (quarter_eqb k' k) eqn:Ek.
        -- apply Qeq in Ek. subst k'. cbn [last_write].
           destruct (last_write (bm_layout (pick (quarters b s) k)) (writes_of k ws) q); auto.
           specialize (Hf q). unfold entry in Hf. cbn [value mat_layout] in Hf. apply Hf.
           now apply (window_stored h b _ _ _ q Hw Hb Hdense).
        -- rewrite Other; auto. intros ->. destruct k; discriminate.
      * apply changes_only_trans with (1 := Hc) in C2. eapply changes_only_weaken; [|exact C2].
        intros c [(p & Hp & Hne & ->) | (k' & q & Hq & Hne & ->)].
        -- cbn [mat_layout] in Hp, Hne. exists k, p. splits; auto.
           ++ now apply (window_stored h b _ _ _ p Hw Hb Hdense) in Hp.
           ++ rewrite Cons. replace (quarter_eqb k k) with true by now destruct k.
              cbn [last_write]. now destruct (last_write (bm_layout (pick (quarters b s) k)) (writes_of k ws) p).
        -- exists k', q. splits; auto. rewrite Cons. destruct (quarter_eqb k' k) eqn:Ek; auto.
           cbn [last_write]. now destruct (last_write (bm_layout (pick (quarters b s) k')) (writes_of k' ws) q).
Qed.

Lemma quarter_region : forall b D s k, bm_layout b = RowMajor D ->
  c_region (bm_data (pick (quarters b s) k)) =
  mkRegion (r_alloc (c_region (bm_data b)))
    (r_lo (c_region (bm_data b)) + (fst (quarter_origin s k) * snd D + snd (quarter_origin s k)))
    ((fst (quarter_dim D s k) - 1) * snd D + (snd (quarter_dim D s k) - 1) + 1).
Proof.
  intros b D s k Hl. rewrite pick_quarters. unfold block_view, view. cbn [bm_data].
  rewrite slice_container_region. rewrite Hl. cbn [cell true_stride fst snd dim]. unfold span, told_stride.
  cbn [block_order dim fst snd]. f_equal; f_equal; lia.
Qed.

(** The slices of two blocks next to each other overlap as soon as they have
    two rows; otherwise all are disjoint. *)
Lemma c23 : forall m h b D s, base_valid h b -> bm_layout b = RowMajor D -> interior D s ->
  exists four, split_in_four_mut m b s = Ok four /\
    ((forall k k', k <> k' -> disjoint (c_region (bm_data (pick four k))) (c_region (bm_data (pick four k'))))
     <-> fst s = 1 /\ fst D = 2).
Proof.
  intros m h b D s Hv Hl Hs. exists (quarters b s). split; [now apply (split_ok m h b D s)|].
  pose proof (fun k => quarter_region b D s k Hl) as R.
  destruct D as [A B], s as [s0 s1]. pose proof Hs as (H1 & H2 & H3 & H4). cbn [fst snd] in *.
  split.
  - intros Hd. split.
    + destruct (N.eq_dec s0 1) as [|Hne]; auto. exfalso.
      specialize (Hd Q0 Q1 ltac:(discriminate)). rewrite !R in Hd. cbn [quarter_dim quarter_origin fst snd] in Hd.
      apply (Hd s1 0); cbn [r_len]; [nia | nia |].
      unfold cell_of_region. cbn [r_alloc r_lo]. f_equal. lia.
    + destruct (N.eq_dec (A - s0) 1) as [|Hne].
      * destruct (N.eq_dec s0 1) as [|Hne]; [lia|]. exfalso.
        specialize (Hd Q0 Q1 ltac:(discriminate)). rewrite !R in Hd. cbn [quarter_dim quarter_origin fst snd] in Hd.
        apply (Hd s1 0); cbn [r_len]; [nia | nia |].
        unfold cell_of_region. cbn [r_alloc r_lo]. f_equal. lia.
      * exfalso.
        specialize (Hd Q2 Q3 ltac:(discriminate)). rewrite !R in Hd. cbn [quarter_dim quarter_origin fst snd] in Hd.
        apply (Hd s1 0); cbn [r_len].
        -- assert (1 * B <= (A - s0 - 1) * B) by (apply N.mul_le_mono_r; lia). lia.
        -- rewrite N.add_1_r; apply N.lt_0_succ.
        -- unfold cell_of_region. cbn [r_alloc r_lo]. f_equal. lia.
  - intros [-> ->] k k' Hne i j. rewrite !R.
    unfold cell_of_region. cbn [r_alloc r_lo r_len].
    intros Hi Hj E. injection E as E.
    destruct k, k'; try congruence; cbn [quarter_dim quarter_origin fst snd] in *; lia.
Qed.

Lemma c23_overlap : forall m h b D s, base_valid h b -> bm_layout b = RowMajor D -> interior D s ->
  2 <= fst s -> exists four, split_in_four_mut m b s = Ok four /\
    ~ disjoint (c_region (bm_data (pick four Q0))) (c_region (bm_data (pick four Q1))).
Proof.
  intros m h b D s Hv Hl Hs H2. exists (quarters b s). split; [now apply (split_ok m h b D s)|].
  intros Hd. rewrite !(quarter_region b D s _ Hl) in Hd.
  destruct D as [A B], s as [s0 s1]. destruct Hs as (X1 & X2 & X3 & X4).
  cbn [quarter_dim quarter_origin fst snd] in *.
  apply (Hd s1 0); cbn [r_len]; [nia | nia |].
  unfold cell_of_region. cbn [r_alloc r_lo]. f_equal. lia.
Qed.

End BlockProofs.
