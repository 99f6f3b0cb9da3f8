(** * Facts about reading and writing entries. *)

From Coq Require Import ZifyBool ZifyNat ZifyN.
From Verif Require Import Machine MachineFacts Layouts Memory Matrix Spec MatrixSpec.
From Verif Require Import LayoutFacts LayoutProofs MemoryFacts.
Local Open Scope N_scope.

(** ** Layouts *)

Lemma stored_dec : forall l p, stored l p \/ ~ stored l p.
Proof.
  intros l [r c]. unfold stored, in_range. cbn [fst snd].
  destruct (N.ltb_spec r (fst (dim l))); [|right; lia].
  destruct (N.ltb_spec c (snd (dim l))); [|right; lia].
  destruct (upper_triangular_like l); [|left; split; auto; discriminate].
  destruct (N.leb_spec r c); [left; auto | right; intros [_ H']; specialize (H' eq_refl); lia].
Qed.

Lemma distinct_dense : forall l, has_strides l = false -> distinct_cells l.
Proof.
  intros l Hl [r c] [r' c'] Hp Hq E. rewrite <- !addr_cell in E by auto.
  apply idx_inj with l; auto. destruct l; cbn in Hl; try discriminate; exact E.
Qed.

Lemma distinct_no_aliasing : forall l, no_aliasing l -> distinct_cells l.
Proof.
  intros l Hl. destruct (has_strides l) eqn:E; [|now apply distinct_dense].
  intros [r c] [r' c'] [Hp _] [Hq _] Ec. apply (separated_inj (dim l) (true_stride l)); auto.
  destruct l; cbn in E; try discriminate; exact Ec.
Qed.

(** The index layout has the same entries and numbering. *)
Lemma index_layout_dim : forall l, dim (index_layout l) = dim l.
Proof. intros []; reflexivity. Qed.

Lemma index_layout_kind : forall l, index_kind (index_layout l) = index_kind l.
Proof. intros []; reflexivity. Qed.

Lemma upper_triangular_kind : forall l,
  upper_triangular_like l = match index_kind l with KUpperTriangular => true | _ => false end.
Proof. intros []; reflexivity. Qed.

Lemma same_kind_stored : forall l l' p, dim l = dim l' -> index_kind l = index_kind l' ->
  stored l p -> stored l' p.
Proof.
  intros l l' p Hd Hk [Hr Hu]. split; [now rewrite <- Hd|].
  rewrite upper_triangular_kind in *. now rewrite <- Hk.
Qed.

Lemma same_kind_count : forall l l', dim l = dim l' -> index_kind l = index_kind l' ->
  entry_count l = entry_count l'.
Proof.
  intros l l' Hd Hk. destruct l, l'; try discriminate Hk; cbn in Hd;
    try (injection Hd as Hd); subst; reflexivity.
Qed.

Lemma same_kind_pos : forall l l' i, dim l = dim l' -> index_kind l = index_kind l' ->
  pos l i = pos l' i.
Proof.
  intros l l' i Hd Hk. destruct l, l'; try discriminate Hk; cbn in Hd;
    try (injection Hd as Hd); subst; reflexivity.
Qed.

Lemma same_kind_number : forall l l' p, dim l = dim l' -> index_kind l = index_kind l' ->
  number l p = number l' p.
Proof.
  intros l l' p Hd Hk. destruct l, l'; try discriminate Hk; cbn in Hd;
    try (injection Hd as Hd); subst; reflexivity.
Qed.

Lemma same_kind_small : forall l l', dim l = dim l' -> index_kind l = index_kind l' ->
  small l -> small l'.
Proof.
  intros l l' Hd Hk. destruct l, l'; try discriminate Hk; cbn in Hd;
    try (injection Hd as Hd); subst; auto.
Qed.

Lemma in_range_dec : forall d p, in_range d p \/ ~ in_range d p.
Proof.
  intros [a b] [r c]. unfold in_range. cbn [fst snd].
  destruct (N.ltb_spec r a); [|right; lia]. destruct (N.ltb_spec c b); [left; auto | right; lia].
Qed.

Section Access.
Context {T : Type} {SC : HScalar T}.
Notation heap := (@heap T).
Implicit Types (h : heap) (x y : matrix T) (b : base_matrix).

Lemma slice_ok_extends : forall h h' r, extends h h' -> slice_ok h r -> slice_ok h' r.
Proof. intros h h' r He [Hr Hl]. split; auto. now apply region_ok_extends with h. Qed.

Lemma base_valid_extends : forall h h' b, extends h h' -> base_valid h b -> base_valid h' b.
Proof.
  intros h h' b He (Hs & Hc & Ha). split; [|split]; auto. now apply slice_ok_extends with h.
Qed.

Lemma valid_extends : forall x h h', extends h h' -> valid h x -> valid h' x.
Proof.
  intros x. induction x as [b | x IH | x IH | x IH s | x IHx y IHy l]; intros h h' He; cbn [valid]; eauto.
  - now apply base_valid_extends.
  - intros (Hx & Hy & Hd & Hk & Hl). repeat split; eauto.
Qed.

(** ** The address of an entry *)

Lemma base_address : forall m h b r c, base_valid h b -> stored (bm_layout b) (r, c) ->
  convert_2d_raw m (bm_layout b) r c = Ok (cell (bm_layout b) (r, c)).
Proof.
  intros m h b r c (Hs & Hc & Ha) Hp. rewrite <- addr_cell by auto.
  apply convert_2d_raw_ok; auto. rewrite addr_cell by auto. specialize (Ha _ Hp).
  destruct Hs as [_ Hs]. rewrite isize_max_val in Hs. rewrite usize_mod_val. lia.
Qed.

Lemma base_address_1d : forall m h b i, base_valid h b -> i < entry_count (bm_layout b) ->
  convert_1d_raw m (bm_layout b) i = Ok (cell (bm_layout b) (pos (bm_layout b) i)).
Proof.
  intros m h b i (Hs & Hc & Ha) Hi. destruct (pos_spec _ _ Hi) as [Hp Hn].
  specialize (Ha _ Hp). pose proof (raw_of_index_pos _ _ Hi) as E.
  destruct (pos (bm_layout b) i) as [r c]. cbn [fst snd] in *. rewrite addr_cell in E by auto.
  rewrite <- E. apply convert_1d_raw_ok; auto. rewrite E.
  destruct Hs as [_ Hs]. rewrite isize_max_val in Hs. rewrite usize_mod_val. lia.
Qed.

Lemma below_diagonal_panics : forall m l r c, in_range (dim l) (r, c) -> ~ stored l (r, c) ->
  convert_2d_raw m l r c = Panic.
Proof.
  intros m l r c Hr Hs. destruct l; try (exfalso; apply Hs; split; auto; discriminate).
  cbn [convert_2d_raw]. unfold upper_triangular_2d_1d.
  destruct (N.leb_spec r c); auto. exfalso. apply Hs. split; auto.
Qed.

Lemma base_entry_some : forall h b p, base_valid h b -> stored (bm_layout b) p ->
  exists v, base_entry h b p = Some v /\
            region_read h (c_region (bm_data b)) (cell (bm_layout b) p) = Ok v.
Proof.
  intros h b p (Hs & Hc & Ha) Hp. destruct Hs as [Hs _].
  destruct (region_read_ok _ _ _ Hs (Ha _ Hp)) as (v & E & Eg). exists v. split; auto.
Qed.

Lemma base_get_unchecked_ok : forall m h b r c, base_valid h b -> stored (bm_layout b) (r, c) ->
  returns_entry (base_get_unchecked m h b r c) (base_entry h b (r, c)).
Proof.
  intros m h b r c Hb Hp. destruct (base_entry_some h b (r, c) Hb Hp) as (v & Ev & Er).
  exists v. split; auto. unfold base_get_unchecked. erewrite base_address by eauto. exact Er.
Qed.

Lemma base_get1d_unchecked_ok : forall m h b i, base_valid h b -> i < entry_count (bm_layout b) ->
  returns_entry (base_get1d_unchecked m h b i) (base_entry h b (pos (bm_layout b) i)).
Proof.
  intros m h b i Hb Hi. destruct (pos_spec _ _ Hi) as [Hp _].
  destruct (base_entry_some h b _ Hb Hp) as (v & Ev & Er).
  exists v. split; auto. unfold base_get1d_unchecked. erewrite base_address_1d by eauto. exact Er.
Qed.

(** ** Expressions *)

Lemma valid_small : forall x h, valid h x -> small (mat_layout x).
Proof.
  intros x. induction x as [b | x IH | x IH | x IH s | x IHx y IHy l]; intros h; cbn [valid mat_layout]; eauto.
  - intros (_ & Hs & _). exact Hs.
  - intros (Hx & _ & _ & _ & ->). apply same_kind_small with (mat_layout x); eauto.
    + now rewrite index_layout_dim.
    + now rewrite index_layout_kind.
Qed.

Lemma get_unchecked_ok : forall m h x r c, valid h x -> stored (mat_layout x) (r, c) ->
  returns_entry (get_unchecked m h x r c) (entry h x (r, c)).
Proof.
  intros m h x r c. induction x as [b | x IH | x IH | x IH s | x IHx y IHy l];
    cbn [valid mat_layout get_unchecked]; intros Hv Hp; unfold entry in *; cbn [value]; auto.
  - now apply base_get_unchecked_ok.
  - destruct (IH Hv Hp) as (v & -> & ->). exists (smul s v). auto.
  - destruct Hv as (Hx & Hy & Hd & Hk & ->).
    assert (Hpx : stored (mat_layout x) (r, c)).
    { apply same_kind_stored with (index_layout (mat_layout x));
        auto using index_layout_dim, index_layout_kind. }
    assert (Hpy : stored (mat_layout y) (r, c)) by now apply same_kind_stored with (mat_layout x).
    destruct (IHx Hx Hpx) as (v & -> & ->). destruct (IHy Hy Hpy) as (w & -> & ->).
    exists (sadd v w). auto.
Qed.

Lemma get1d_unchecked_ok : forall m h x i, valid h x -> i < entry_count (mat_layout x) ->
  returns_entry (get1d_unchecked m h x i) (entry h x (pos (mat_layout x) i)).
Proof.
  intros m h x i. induction x as [b | x IH | x IH | x IH s | x IHx y IHy l];
    cbn [valid mat_layout get1d_unchecked]; intros Hv Hp; unfold entry in *; cbn [value]; auto.
  - now apply base_get1d_unchecked_ok.
  - destruct (IH Hv Hp) as (v & -> & ->). exists (smul s v). auto.
  - destruct Hv as (Hx & Hy & Hd & Hk & ->).
    rewrite (same_kind_pos (index_layout (mat_layout x)) (mat_layout x)) in *
      by auto using index_layout_dim, index_layout_kind.
    rewrite (same_kind_count (index_layout (mat_layout x)) (mat_layout x)) in Hp
      by auto using index_layout_dim, index_layout_kind.
    destruct (IHx Hx Hp) as (v & -> & ->).
    rewrite (same_kind_pos (mat_layout x) (mat_layout y)) by auto.
    rewrite (same_kind_count (mat_layout x) (mat_layout y)) in Hp by auto.
    destruct (IHy Hy Hp) as (w & -> & ->).
    exists (sadd v w). auto.
Qed.

Lemma get_unchecked_below_diagonal : forall m h x r c,
  valid h x -> in_range (dim (mat_layout x)) (r, c) -> ~ stored (mat_layout x) (r, c) ->
  get_unchecked m h x r c = Panic.
Proof.
  intros m h x r c. induction x as [b | x IH | x IH | x IH s | x IHx y IHy l];
    cbn [valid mat_layout get_unchecked]; intros Hv Hr Hp; auto.
  - unfold base_get_unchecked. now rewrite below_diagonal_panics.
  - now rewrite IH.
  - destruct Hv as (Hx & Hy & Hd & Hk & ->). rewrite IHx; auto.
    + now rewrite index_layout_dim in Hr.
    + intros Hq. apply Hp. apply same_kind_stored with (mat_layout x); auto.
      * now rewrite index_layout_dim.
      * now rewrite index_layout_kind.
Qed.

(** ** Checked access *)

Lemma assert_dimension_ok : forall r c d, in_range d (r, c) -> assert_dimension r c d = Ok tt.
Proof.
  intros r c [a b] [Hr Hc]. cbn [fst snd] in *. unfold assert_dimension. cbn [fst snd].
  apply N.ltb_lt in Hr, Hc. now rewrite Hr, Hc.
Qed.

Lemma assert_dimension_panic : forall r c d, ~ in_range d (r, c) -> assert_dimension r c d = Panic.
Proof.
  intros r c [a b] H. unfold assert_dimension, in_range in *. cbn [fst snd] in *.
  destruct (N.ltb_spec r a); cbn; auto. destruct (N.ltb_spec c b); cbn; auto. exfalso; auto.
Qed.

Lemma assert_dimension_cases : forall r c d,
  (in_range d (r, c) /\ assert_dimension r c d = Ok tt) \/
  (~ in_range d (r, c) /\ assert_dimension r c d = Panic).
Proof.
  intros r c d. destruct (in_range_dec d (r, c)).
  - left. auto using assert_dimension_ok.
  - right. auto using assert_dimension_panic.
Qed.

Lemma get_stored : forall m h x r c, valid h x -> stored (mat_layout x) (r, c) ->
  returns_entry (get m h x r c) (entry h x (r, c)).
Proof.
  intros m h x r c Hv Hp. unfold get. rewrite assert_dimension_ok by apply Hp. cbn [bind].
  now apply get_unchecked_ok.
Qed.

Lemma get_not_stored : forall m h x r c, valid h x -> ~ stored (mat_layout x) (r, c) ->
  get m h x r c = Panic.
Proof.
  intros m h x r c Hv Hp. unfold get.
  destruct (assert_dimension_cases r c (dim (mat_layout x))) as [[Hr ->] | [Hr ->]]; auto.
  cbn [bind]. now apply get_unchecked_below_diagonal.
Qed.

Lemma get1d_stored : forall m h x i, valid h x -> i < entry_count (mat_layout x) ->
  returns_entry (get1d m h x i) (entry h x (pos (mat_layout x) i)).
Proof.
  intros m h x i Hv Hi. unfold get1d. rewrite number_of_elements_ok by eauto using valid_small.
  cbn [bind]. unfold assert_dimension1d. pose proof Hi as Hi'. apply N.ltb_lt in Hi'. rewrite Hi'.
  cbn [assert_ bind]. now apply get1d_unchecked_ok.
Qed.

Lemma get1d_not_stored : forall m h x i, valid h x -> entry_count (mat_layout x) <= i ->
  get1d m h x i = Panic.
Proof.
  intros m h x i Hv Hi. unfold get1d. rewrite number_of_elements_ok by eauto using valid_small.
  cbn [bind]. unfold assert_dimension1d. apply N.ltb_ge in Hi. now rewrite Hi.
Qed.

(** ** Writing *)

Lemma writes_to_layout : forall x b, writes_to x = Some b -> mat_layout x = bm_layout b.
Proof.
  intros x b. induction x; cbn [writes_to mat_layout]; try discriminate; auto.
  destruct (container_is_mut _); congruence.
Qed.

Lemma writes_to_valid : forall h x b, writes_to x = Some b -> valid h x -> base_valid h b.
Proof.
  intros h x b. induction x; cbn [writes_to valid]; try discriminate; auto.
  destruct (container_is_mut _); congruence.
Qed.

Lemma writes_to_entry : forall h x b p, writes_to x = Some b -> entry h x p = base_entry h b p.
Proof.
  intros h x b p. unfold entry. induction x; cbn [writes_to value]; try discriminate; auto.
  destruct (container_is_mut _); congruence.
Qed.

Lemma get_unchecked_mut_base : forall m x b r c, writes_to x = Some b ->
  get_unchecked_mut m x r c = base_get_unchecked_mut m b r c.
Proof.
  intros m x b r c. induction x; cbn [writes_to get_unchecked_mut]; try discriminate; auto.
  destruct (container_is_mut _); congruence.
Qed.

Lemma get1d_unchecked_mut_base : forall m x b i, writes_to x = Some b ->
  get1d_unchecked_mut m x i = base_get1d_unchecked_mut m b i.
Proof.
  intros m x b i. induction x; cbn [writes_to get1d_unchecked_mut]; try discriminate; auto.
  destruct (container_is_mut _); congruence.
Qed.

Definition place_of (q : nat * N) : place := mkPlace (fst q) (snd q).

Lemma base_get_unchecked_mut_ok : forall m h b r c, base_valid h b -> stored (bm_layout b) (r, c) ->
  base_get_unchecked_mut m b r c = Ok (place_of (entry_cell b (r, c))).
Proof.
  intros m h b r c Hb Hp. unfold base_get_unchecked_mut. erewrite base_address by eauto.
  apply region_place_ok. now apply Hb.
Qed.

Lemma base_get1d_unchecked_mut_ok : forall m h b i, base_valid h b -> i < entry_count (bm_layout b) ->
  base_get1d_unchecked_mut m b i = Ok (place_of (entry_cell b (pos (bm_layout b) i))).
Proof.
  intros m h b i Hb Hi. unfold base_get1d_unchecked_mut. erewrite base_address_1d by eauto.
  apply region_place_ok. apply Hb. now apply pos_spec.
Qed.

Lemma hset_changes_only : forall h a i v, changes_only (fun q => q = (a, i)) h (hset h a i v).
Proof.
  intros h a i v. split; [|split].
  - unfold hset. destruct (nth_error h a); auto using upd_length.
  - apply extends_hset.
  - intros a' i' H. apply hget_hset_other. congruence.
Qed.

Lemma place_write_entry : forall h b p v, base_valid h b -> stored (bm_layout b) p ->
  exists h', place_write h (place_of (entry_cell b p)) v = Ok h' /\
             h' = hset h (fst (entry_cell b p)) (snd (entry_cell b p)) v /\
             one_cell_written h h' (fst (entry_cell b p)) (snd (entry_cell b p)) v.
Proof.
  intros h b p v Hb Hp. destruct (base_entry_some h b p Hb Hp) as (w & Ew & _).
  unfold base_entry in Ew.
  exists (hset h (fst (entry_cell b p)) (snd (entry_cell b p)) v). split; [|split; auto].
  - now apply place_write_ok with w.
  - split.
    + apply hset_changes_only.
    + now apply hget_hset_same with w.
Qed.

Lemma set_stored : forall m h x b r c v, valid h x -> writes_to x = Some b ->
  stored (mat_layout x) (r, c) ->
  exists h', set m h x r c v = Ok h' /\
             h' = hset h (fst (entry_cell b (r, c))) (snd (entry_cell b (r, c))) v /\
             one_cell_written h h' (fst (entry_cell b (r, c))) (snd (entry_cell b (r, c))) v.
Proof.
  intros m h x b r c v Hv Hw Hp. unfold set, get_mut. rewrite assert_dimension_ok by apply Hp.
  cbn [bind]. rewrite (get_unchecked_mut_base m x b) by auto.
  rewrite (writes_to_layout x b Hw) in Hp. pose proof (writes_to_valid h x b Hw Hv) as Hb.
  rewrite (base_get_unchecked_mut_ok m h b) by auto. cbn [bind]. now apply place_write_entry.
Qed.

Lemma set_not_stored : forall m h x b r c v, valid h x -> writes_to x = Some b ->
  ~ stored (mat_layout x) (r, c) -> set m h x r c v = Panic /\ get_mut m x r c = Panic.
Proof.
  intros m h x b r c v Hv Hw Hp. unfold set.
  enough (E : get_mut m x r c = Panic) by now rewrite E.
  unfold get_mut.
  destruct (assert_dimension_cases r c (dim (mat_layout x))) as [[Hr ->] | [Hr ->]]; auto.
  cbn [bind]. rewrite (get_unchecked_mut_base m x b) by auto. unfold base_get_unchecked_mut.
  rewrite (writes_to_layout x b Hw) in *. now rewrite below_diagonal_panics.
Qed.

Lemma get_mut_stored : forall m h x b r c, valid h x -> writes_to x = Some b ->
  stored (mat_layout x) (r, c) -> get_mut m x r c = Ok (place_of (entry_cell b (r, c))).
Proof.
  intros m h x b r c Hv Hw Hp. unfold get_mut. rewrite assert_dimension_ok by apply Hp.
  cbn [bind]. rewrite (get_unchecked_mut_base m x b) by auto.
  rewrite (writes_to_layout x b Hw) in Hp. pose proof (writes_to_valid h x b Hw Hv) as Hb.
  now apply base_get_unchecked_mut_ok with h.
Qed.

Lemma get1d_mut_stored : forall m h x b i, valid h x -> writes_to x = Some b ->
  i < entry_count (mat_layout x) ->
  get1d_mut m x i = Ok (place_of (entry_cell b (pos (mat_layout x) i))).
Proof.
  intros m h x b i Hv Hw Hi. unfold get1d_mut. rewrite number_of_elements_ok by eauto using valid_small.
  cbn [bind]. unfold assert_dimension1d. pose proof Hi as Hi'. apply N.ltb_lt in Hi'. rewrite Hi'.
  cbn [assert_ bind]. rewrite (get1d_unchecked_mut_base m x b) by auto.
  rewrite (writes_to_layout x b Hw) in *. pose proof (writes_to_valid h x b Hw Hv) as Hb.
  now apply base_get1d_unchecked_mut_ok with h.
Qed.

Lemma get1d_mut_not_stored : forall m h x i, valid h x ->
  entry_count (mat_layout x) <= i -> get1d_mut m x i = Panic.
Proof.
  intros m h x i Hv Hi. unfold get1d_mut. rewrite number_of_elements_ok by eauto using valid_small.
  cbn [bind]. unfold assert_dimension1d. apply N.ltb_ge in Hi. now rewrite Hi.
Qed.

Lemma set1d_stored : forall m h x b i v, valid h x -> writes_to x = Some b ->
  i < entry_count (mat_layout x) ->
  set1d m h x i v = set m h x (fst (pos (mat_layout x) i)) (snd (pos (mat_layout x) i)) v.
Proof.
  intros m h x b i v Hv Hw Hi. unfold set1d, set. erewrite get1d_mut_stored by eauto.
  destruct (pos_spec _ _ Hi) as [Hp _]. destruct (pos (mat_layout x) i) as [r c]. cbn [fst snd].
  now erewrite get_mut_stored by eauto.
Qed.

Lemma set1d_not_stored : forall m h x i v, valid h x ->
  entry_count (mat_layout x) <= i -> set1d m h x i v = Panic.
Proof. intros m h x i v Hv Hi. unfold set1d. now rewrite (get1d_mut_not_stored m h). Qed.

(** Entries after a write. *)
Lemma base_entry_hset : forall h b q p v, distinct_cells (bm_layout b) -> base_valid h b ->
  stored (bm_layout b) p -> stored (bm_layout b) q ->
  base_entry (hset h (fst (entry_cell b p)) (snd (entry_cell b p)) v) b q =
  if (fst q =? fst p) && (snd q =? snd p) then Some v else base_entry h b q.
Proof.
  intros h b [r c] [r' c'] v Hd Hb Hp Hq. cbn [fst snd]. unfold base_entry.
  destruct ((r =? r') && (c =? c')) eqn:E.
  - assert (r = r') by lia. assert (c = c') by lia. subst.
    destruct (base_entry_some h b _ Hb Hp) as (w & Ew & _). now apply hget_hset_same with w.
  - apply hget_hset_other. intros X. rewrite <- !surjective_pairing in X.
    unfold entry_cell, cell_of_region in X.
    injection X as X. apply N.add_cancel_l in X. apply (Hd _ _ Hp Hq) in X.
    injection X as -> ->. lia.
Qed.

End Access.
