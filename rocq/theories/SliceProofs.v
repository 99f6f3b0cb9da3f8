(** * C53: slices of the storage and entries. *)

From Coq Require Import ZifyBool ZifyNat ZifyN.
From Verif Require Import Machine MachineFacts Layouts Memory Matrix MatMul Spec MatrixSpec ProductSpec SliceSpec.
From Verif Require Import LayoutFacts LayoutProofs MemoryFacts AccessFacts AccessProofs ConstructorProofs BlockProofs ExprProofs ProductProofs ProductExact.
Local Open Scope N_scope.

Section Slices.
Context {T : Type} {SC : HScalar T}.
Notation heap := (@heap T).

Lemma slice_read : forall (h : heap) r first last k, region_ok h r -> last <= r_len r -> k < last - first ->
  region_read h (slice_of r first last) k = region_read h r (first + k).
Proof.
  intros h r first last k Hr Hl Hk.
  destruct (region_read_ok h r (first + k) Hr) as (v & E & G); [lia|].
  destruct (region_read_ok h (slice_of r first last) k) as (w & E' & G').
  - apply region_ok_sub; auto. lia.
  - cbn [slice_of r_len]. lia.
  - unfold slice_of in G' at 1 2. cbn [r_alloc r_lo] in G'. rewrite <- N.add_assoc, G in G'. congruence.
Qed.

Lemma number_below : forall l p, stored l p -> number l p < entry_count l /\ pos l (number l p) = p.
Proof. intros l [i j] Hp. split; [now apply number_bound|now apply pos_number]. Qed.

Lemma consecutive_count : forall (h : heap) b, base_valid h b -> consecutive (bm_layout b) ->
  entry_count (bm_layout b) <= r_len (c_region (bm_data b)).
Proof.
  intros h b (Hs & Hsm & Hc) Hcons. destruct (N.eq_dec (entry_count (bm_layout b)) 0) as [->|Hn]; [lia|].
  assert (Hi : entry_count (bm_layout b) - 1 < entry_count (bm_layout b)) by lia.
  destruct (pos_spec (bm_layout b) _ Hi) as [Hp _]. specialize (Hc _ Hp). rewrite (Hcons _ Hp), number_pos in Hc; lia.
Qed.

Lemma read_entry : forall m (h : heap) b k, base_valid h b -> consecutive (bm_layout b) -> k < entry_count (bm_layout b) ->
  region_read h (c_region (bm_data b)) k = get1d m h (MBase b) k.
Proof.
  intros m h b k Vb Hc Hk. destruct (get1d_stored m h (MBase b) k Vb Hk) as (v & -> & E).
  cbn [mat_layout] in E. unfold entry in E. cbn [value] in E.
  destruct (pos_spec (bm_layout b) k Hk) as [Hp _].
  destruct (base_entry_some h b _ Vb Hp) as (w & E' & R). rewrite (Hc _ Hp), number_pos in R by auto.
  congruence.
Qed.

Lemma get_is_get1d : forall m (h : heap) b i j, base_valid h b -> stored (bm_layout b) (i, j) ->
  get m h (MBase b) i j = get1d m h (MBase b) (number (bm_layout b) (i, j)).
Proof.
  intros m h b i j Vb Hp. destruct (number_below _ _ Hp) as [Hn Ep].
  destruct (get_stored m h (MBase b) i j Vb Hp) as (v & -> & E).
  destruct (get1d_stored m h (MBase b) _ Vb Hn) as (w & -> & E').
  cbn [mat_layout] in E'. rewrite Ep in E'. congruence.
Qed.

Lemma c53 : forall m (h : heap) b, base_valid h b -> consecutive (bm_layout b) ->
  slices_show_entries m h b /\ (container_is_mut (bm_data b) = true -> slices_are_places (T := T) m b).
Proof.
  intros m h b Vb Hc. pose proof (consecutive_count h b Vb Hc) as Hn.
  assert (Hr : region_ok h (c_region (bm_data b))) by apply Vb.
  assert (P : forall k, k < entry_count (bm_layout b) ->
            entry_cell b (pos (bm_layout b) k) = cell_of_region (c_region (bm_data b)) k).
  { intros k Hk. destruct (pos_spec (bm_layout b) k Hk) as [Hp _]. unfold entry_cell.
    now rewrite (Hc _ Hp), number_pos. }
  split.
  - intros first last H1 H2. exists (slice_of (c_region (bm_data b)) first last).
    rewrite get_slice_ok by lia. splits; auto.
    + intros k Hk. rewrite slice_read by (auto; lia). apply read_entry; auto. lia.
    + intros i j Hp Hk. rewrite slice_read by (auto; lia). rewrite (get_is_get1d m h b i j) by auto.
      replace (first + (number (bm_layout b) (i, j) - first)) with (number (bm_layout b) (i, j)) by lia.
      apply read_entry; auto. lia.
  - intros Hm first last H1 H2. exists (slice_of (c_region (bm_data b)) first last).
    rewrite get_slice_mut_eq, get_slice_ok by lia.
    assert (Hw : writes_to (@MBase T b) = Some b) by (cbn [writes_to]; now rewrite Hm).
    splits; auto.
    + intros k Hk. rewrite region_place_ok by (cbn [slice_of r_len]; lia).
      rewrite (get1d_mut_stored m h (MBase b) b (first + k)) by (auto; cbn [mat_layout]; lia).
      cbn [mat_layout]. rewrite P by lia. unfold place_of, slice_of, cell_of_region. cbn [fst snd r_alloc r_lo].
      now rewrite N.add_assoc.
    + intros i j Hp Hk. rewrite region_place_ok by (cbn [slice_of r_len]; lia).
      rewrite (get_mut_stored m h (MBase b) b i j) by auto.
      unfold entry_cell. rewrite (Hc _ Hp). unfold place_of, slice_of, cell_of_region. cbn [fst snd r_alloc r_lo].
      do 2 f_equal. lia.
Qed.

(** Otherwise some contents show the difference. *)
Lemma c53_exact : forall m (h : heap) b (x y : T), x <> y -> base_valid h b ->
  ((forall h1, same_sizes h h1 -> slices_show_entries m h1 b) <-> consecutive (bm_layout b)).
Proof.
  intros m h b x y Hxy Vb. split.
  - intros H p Hp. destruct (number_below _ _ Hp) as [Hn Ep].
    destruct (N.eq_dec (cell (bm_layout b) p) (number (bm_layout b) p)) as [E|E]; [exact E|exfalso].
    set (n := number (bm_layout b) p) in *.
    set (q := entry_cell b p).
    set (f := fun a i => if (a =? fst q)%nat && (i =? snd q) then x else y).
    destruct (H (paint h f) (paint_sizes h f) n (n + 1)) as (r & Er & Lr & Hk & _); [lia|lia|].
    assert (Hlen : n + 1 <= r_len (c_region (bm_data b))).
    { destruct (N.le_gt_cases (n + 1) (r_len (c_region (bm_data b)))); auto.
      rewrite get_slice_panic in Er by lia. discriminate. }
    rewrite get_slice_ok in Er by lia. injection Er as <-.
    specialize (Hk 0 ltac:(lia)).
    assert (V1 : base_valid (paint h f) b) by (eapply base_valid_extends; [apply paint_extends|exact Vb]).
    rewrite N.add_0_r in Hk. rewrite slice_read, N.add_0_r in Hk; [|apply V1|lia|lia].
    destruct (get1d_stored m (paint h f) (MBase b) n V1 Hn) as (v & Ev & E1). rewrite Ev in Hk.
    cbn [mat_layout] in E1. rewrite Ep in E1. unfold entry in E1. cbn [value] in E1.
    destruct (base_entry_some h b p Vb Hp) as (v0 & E0 & _). unfold base_entry in E0, E1.
    rewrite (paint_hget h f _ _ _ E0) in E1. unfold f in E1 at 1. fold q in E1.
    rewrite Nat.eqb_refl, N.eqb_refl in E1. cbn [andb] in E1. injection E1 as <-.
    assert (R0 : region_ok h (c_region (bm_data b))) by apply Vb.
    destruct (region_read_ok h _ n R0) as (w0 & _ & G0); [lia|].
    assert (R1 : region_ok (paint h f) (c_region (bm_data b))) by apply V1.
    destruct (region_read_ok _ _ n R1) as (w & Rw & G); [lia|].
    rewrite (paint_hget h f _ _ _ G0) in G. rewrite Rw in Hk. injection Hk as ->.
    unfold f, q, entry_cell, cell_of_region in G. cbn [fst snd] in G. rewrite Nat.eqb_refl in G. cbn [andb] in G.
    destruct (N.eqb_spec (r_lo (c_region (bm_data b)) + n) (r_lo (c_region (bm_data b)) + cell (bm_layout b) p));
      [lia|]. congruence.
  - intros Hc h1 Hs. apply c53; auto.
    apply base_valid_extends with h; auto. intros a l Hl. unfold same_sizes in Hs.
    assert (Ha : nth_error (map (@length T) h) a = Some (length l)) by (now apply map_nth_error).
    rewrite <- Hs in Ha. rewrite nth_error_map in Ha. destruct (nth_error h1 a) as [l'|]; [|discriminate].
    exists l'. split; auto. injection Ha as ->. reflexivity.
Qed.

Lemma dense_consecutive : forall l, has_strides l = false -> consecutive l.
Proof.
  intros l Hl p Hp. destruct (number_below l p Hp) as [Hn Ep]. destruct p as [r c].
  rewrite <- addr_cell by exact Hp. rewrite <- idx_number by exact Hp.
  destruct l; cbn in *; congruence || reflexivity.
Qed.

(** Of the blocks of a dense matrix the unbroken ones are consecutive. *)
Lemma block_consecutive : forall (h : heap) l d x, block_of_dense h l d x ->
  (consecutive (bm_layout x) <-> unbroken l d).
Proof.
  intros h l d x Hx. split.
  - intros Hc. destruct (block_of_dense_ok h l d x Hx) as (Vx & Cx & Dx).
    assert (Hu : unbroken l d \/ ~ unbroken l d).
    { unfold unbroken. destruct (column_ordered l); lia. }
    destruct Hu as [Hu|Hu]; auto. exfalso.
    destruct (narrow_facts T h l d x Hx Hu) as (Hi & Hin & Hout).
    apply (Hout (odd_position l)); auto.
    rewrite (Hc (odd_position l)).
    + destruct (Hin (odd_position l) Hi) as [_ <-]; auto.
      unfold as_dense. cbn [bm_layout].
      destruct Hi as [Hi0 Hi1].
      destruct (bm_layout x) as [D|D|n|n|D s|D s|n s|n s|n]; cbn [chain] in Cx; try contradiction;
        cbn [number column_ordered column_vector_like orb cell true_stride dim fst snd] in *; subst D; lia.
    + rewrite <- Dx in Hi. now apply chain_stored.
  - intros Hu. destruct Hx as (m & mut & p & tl & Vp & <- & Hl & Hd & Hi & E).
    destruct (block_ok m h mut p tl d) as (E' & _ & _); auto using dense_chain.
    rewrite E in E'. injection E' as ->.
    unfold block_view, view. cbn [bm_layout]. unfold unbroken, order_of, told_stride in *.
    destruct d as [d0 d1], Hd as [Hd0 Hd1]. intros [i j] [Hp _]. revert Hp.
    destruct (bm_layout p) as [[D0 D1] | [D0 D1] | n | n | D s | D s | n s | n s | n]; cbn [dense_matrix] in Hl; try discriminate;
      unfold in_range; cbn [column_ordered column_vector_like orb block_order dim fst snd strided_layout cell number true_stride] in *;
      intros [Hp0 Hp1]; nia.
Qed.

Lemma c53_dense : forall m (h : heap) b, base_valid h b -> has_strides (bm_layout b) = false ->
  slices_show_entries m h b /\ (container_is_mut (bm_data b) = true -> slices_are_places (T := T) m b).
Proof. intros. apply c53; auto using dense_consecutive. Qed.

Lemma c53_blocks : forall m (h : heap) l d b (x y : T), x <> y -> block_of_dense h l d b ->
  ((forall h1, same_sizes h h1 -> slices_show_entries m h1 b) <-> unbroken l d).
Proof.
  intros m h l d b x y Hxy Hb. rewrite (c53_exact m h b x y Hxy); [now apply block_consecutive with h|].
  now apply (block_of_dense_ok h l d b).
Qed.
End Slices.
