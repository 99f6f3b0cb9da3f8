(** * Proofs of C25 - C31 and of the expression part of C36. *)

From Coq Require Import ZifyBool ZifyNat ZifyN.
From Verif Require Import Machine MachineFacts Layouts Memory Matrix Spec MatrixSpec ExprSpec.
From Verif Require Import LayoutFacts LayoutProofs MemoryFacts AccessFacts AccessProofs ConstructorProofs BlockProofs.
Local Open Scope N_scope.

Lemma nth_error_ext : forall (A : Type) (l l' : list A),
  (forall i, nth_error l i = nth_error l' i) -> l = l'.
Proof.
  intros A l. induction l as [|a l IH]; intros [|a' l'] H; auto.
  - specialize (H O). discriminate.
  - specialize (H O). discriminate.
  - pose proof (H O) as H0. cbn in H0. injection H0 as ->. f_equal. apply IH.
    intros i. exact (H (S i)).
Qed.

Lemma nth_error_seq : forall n k i, (i < n)%nat -> nth_error (seq k n) i = Some (k + i)%nat.
Proof.
  intros n. induction n as [|n IH]; intros k i Hi; [lia|]. destruct i as [|i]; cbn [seq nth_error].
  - now rewrite Nat.add_0_r.
  - rewrite IH by lia. f_equal. lia.
Qed.

Section ExprProofs.
Context {T : Type} {SC : HScalar T}.
Notation heap := (@heap T).
Implicit Types (h : heap) (x y : matrix T) (b : base_matrix) (e : expr T).

(** ** Building *)

Lemma dim_eqb_eq : forall d d' : N * N, dim_eqb d d' = true <-> d = d'.
Proof.
  intros [a a'] [c d]. unfold dim_eqb. cbn [fst snd]. split; intros H.
  - f_equal; lia.
  - injection H as -> ->. lia.
Qed.

Definition wrap (p : passed) (x : matrix T) : matrix T :=
  match p with ByValue => x | ByReference => MRef x end.

Lemma wrap_layout : forall p x, mat_layout (wrap p x) = mat_layout x.
Proof. intros []; reflexivity. Qed.
Lemma wrap_valid : forall p h x, valid h (wrap p x) <-> valid h x.
Proof. intros [] h x; cbn; tauto. Qed.
Lemma wrap_value : forall p en x q, value en (wrap p x) q = value en x q.
Proof. intros []; reflexivity. Qed.
Lemma wrap_get : forall p m h x i j, get_unchecked m h (wrap p x) i j = get_unchecked m h x i j.
Proof. intros []; reflexivity. Qed.
Lemma wrap_get1d : forall p m h x i, get1d_unchecked m h (wrap p x) i = get1d_unchecked m h x i.
Proof. intros []; reflexivity. Qed.

Lemma plus_eq : forall p q x y,
  plus p q x y = if dim_eqb (dim (mat_layout x)) (dim (mat_layout y))
                 then Ok (MAddition (wrap p x) (wrap q y) (index_layout (mat_layout x))) else Panic.
Proof.
  intros p q x y. destruct p, q; cbn [plus wrap];
    unfold add_mat_mat, add_mat_ref, add_ref_mat, add_ref_ref, addition_new, from_ref; cbn [mat_layout];
    destruct (dim_eqb _ _); reflexivity.
Qed.

Lemma scalar_times_eq : forall s p x, scalar_times s p x = MScalarMult (wrap p x) s.
Proof. intros s [] x; reflexivity. Qed.
Lemma times_scalar_eq : forall s p x, times_scalar p x s = MScalarMult (wrap p x) s.
Proof. intros s [] x; reflexivity. Qed.

Lemma all_leaves_plus : forall P p e q f,
  all_leaves P (Plus p e q f) <-> all_leaves P e /\ all_leaves P f.
Proof. intros. unfold all_leaves. cbn [leaves]. apply Forall_app. Qed.

Lemma build_spec : forall h d k e, all_leaves (leaf_ok h d k) e ->
  exists x, build e = Ok x /\ valid h x /\ dim (mat_layout x) = d /\ index_kind (mat_layout x) = k /\
    forall en p, value en x p = denote en e p.
Proof.
  intros h d k e. induction e as [b | p e IHe q f IHf | s p e IHe | p e IHe s];
    intros H; cbn [build denote].
  - apply Forall_inv in H. destruct H as (Hb & Hd & Hk). exists (MBase b). cbn [mat_layout valid]. auto.
  - apply all_leaves_plus in H as [He Hf].
    destruct (IHe He) as (x & -> & Vx & Dx & Kx & Ex). destruct (IHf Hf) as (y & -> & Vy & Dy & Ky & Ey).
    cbn [bind]. rewrite plus_eq. replace (dim_eqb _ _) with true by (symmetry; apply dim_eqb_eq; congruence).
    eexists. split; [reflexivity|]. cbn [valid mat_layout]. splits.
    + now apply wrap_valid.
    + now apply wrap_valid.
    + rewrite !wrap_layout. congruence.
    + rewrite !wrap_layout. congruence.
    + now rewrite wrap_layout.
    + now rewrite index_layout_dim.
    + now rewrite index_layout_kind.
    + intros en r. cbn [value]. now rewrite !wrap_value, Ex, Ey.
  - destruct (IHe H) as (x & -> & Vx & Dx & Kx & Ex). cbn [bind]. rewrite scalar_times_eq.
    eexists. split; [reflexivity|]. cbn [valid mat_layout]. rewrite wrap_valid, wrap_layout. splits; auto.
    intros en r. cbn [value]. rewrite wrap_value, Ex. now destruct (denote en e r).
  - destruct (IHe H) as (x & -> & Vx & Dx & Kx & Ex). cbn [bind]. rewrite times_scalar_eq.
    eexists. split; [reflexivity|]. cbn [valid mat_layout]. rewrite wrap_valid, wrap_layout. splits; auto.
    intros en r. cbn [value]. rewrite wrap_value, Ex. now destruct (denote en e r).
Qed.

Definition kind_stored (k : base_kind) (d p : N * N) : Prop :=
  in_range d p /\ (k = KUpperTriangular -> fst p <= snd p).

Lemma stored_kind : forall l p, stored l p <-> kind_stored (index_kind l) (dim l) p.
Proof.
  intros l p. unfold stored, kind_stored. rewrite upper_triangular_kind.
  split; intros [H1 H2]; split; auto.
  - intros E. apply H2. now rewrite E.
  - destruct (index_kind l); try discriminate. auto.
Qed.

Lemma c25 : forall m h d k e, all_leaves (leaf_ok h d k) e ->
  exists x, build e = Ok x /\ valid h x /\ mat_dim x = d /\ index_kind (mat_layout x) = k /\
    forall i j,
      (stored (mat_layout x) (i, j) ->
         returns_entry (get m h x i j) (denote (base_entry h) e (i, j))) /\
      (~ stored (mat_layout x) (i, j) -> panics (get m h x i j)).
Proof.
  intros m h d k e H. destruct (build_spec h d k e H) as (x & E & V & D & K & Ex).
  exists x. splits; auto. intros i j. split; intros Hp.
  - rewrite <- Ex. now apply get_stored.
  - now apply get_not_stored.
Qed.

(** ** C27, C28 *)

Lemma c27_plus : forall p q p' q' x y,
  (panics (plus p q x y) <-> panics (plus p' q' x y)) /\
  forall z z', plus p q x y = Ok z -> plus p' q' x y = Ok z' ->
    mat_layout z = mat_layout z' /\
    forall m h, (forall i j, get m h z i j = get m h z' i j) /\ (forall i, get1d m h z i = get1d m h z' i).
Proof.
  intros p q p' q' x y. rewrite !plus_eq. destruct (dim_eqb _ _).
  - split; [split; discriminate|]. intros z z' E E'. injection E as <-. injection E' as <-.
    split; [reflexivity|]. intros m h. split.
    + intros i j. unfold get. cbn [mat_layout get_unchecked]. now rewrite !wrap_get.
    + intros i. unfold get1d. cbn [mat_layout get1d_unchecked]. now rewrite !wrap_get1d.
  - split; [tauto|]. discriminate.
Qed.

Lemma c27_times : forall s p p' x,
  let variants := [scalar_times s p x; times_scalar p x s; scalar_times s p' x; times_scalar p' x s] in
  forall z z', In z variants -> In z' variants ->
    mat_layout z = mat_layout z' /\
    forall m h, (forall i j, get m h z i j = get m h z' i j) /\ (forall i, get1d m h z i = get1d m h z' i).
Proof.
  intros s p p' x variants z z' Hz Hz'. subst variants.
  rewrite !scalar_times_eq, !times_scalar_eq in *. cbn [In] in *.
  assert (G : forall w, In w [MScalarMult (wrap p x) s; MScalarMult (wrap p' x) s] ->
    mat_layout w = mat_layout x /\
    forall m h, (forall i j, get m h w i j =
      (_ <- assert_dimension i j (dim (mat_layout x)) ;; v <- get_unchecked m h x i j ;; Ok (smul s v))) /\
      (forall i, get1d m h w i = (n <- number_of_elements m (mat_layout x) ;;
         _ <- assert_dimension1d i n ;; v <- get1d_unchecked m h x i ;; Ok (smul s v)))).
  { intros w Hw. cbn [In] in Hw. destruct Hw as [<- | [<- | []]]; (split; [apply wrap_layout|]);
      intros m h; split; intros; unfold get, get1d; cbn [mat_layout get_unchecked get1d_unchecked];
      now rewrite ?wrap_layout, ?wrap_get, ?wrap_get1d. }
  destruct (G z) as [L1 G1]; [cbn [In]; tauto|]. destruct (G z') as [L2 G2]; [cbn [In]; tauto|].
  split; [congruence|]. intros m h. destruct (G1 m h) as [A1 B1]. destruct (G2 m h) as [A2 B2].
  split; intros; now rewrite ?A1, ?A2, ?B1, ?B2.
Qed.

Lemma c28 : forall p q x y,
  (panics (plus p q x y) <-> mat_dim x <> mat_dim y) /\ plus p q x y <> UB.
Proof.
  intros p q x y. rewrite plus_eq. unfold mat_dim.
  destruct (dim_eqb (dim (mat_layout x)) (dim (mat_layout y))) eqn:E.
  - apply dim_eqb_eq in E. split; [split; [discriminate | congruence] | discriminate].
  - split; [|discriminate]. split; [|reflexivity]. intros _ X. apply dim_eqb_eq in X. congruence.
Qed.

(** ** C26 *)

Lemma old_entries_keep : forall h h', extends h h' ->
  (forall a i, (a < length h)%nat -> hget h' a i = hget h a i) -> keeps_matrices h h'.
Proof.
  intros h h' He Hg. apply keeps_matrices_intro; auto. intros b p ([Hr _] & _).
  unfold base_entry, entry_cell, cell_of_region. cbn [fst snd]. apply Hg. now apply region_ok_alloc.
Qed.

Lemma only_allocates_hget : forall h h', only_allocates h h' ->
  forall a i, (a < length h)%nat -> hget h' a i = hget h a i.
Proof.
  intros h h' H a i Ha. unfold hget. destruct (nth_error h a) as [l|] eqn:E.
  - now rewrite (H _ _ E).
  - apply nth_error_None in E. lia.
Qed.

Lemma same_hget_only_allocates : forall h h', extends h h' ->
  (forall a i, (a < length h)%nat -> hget h' a i = hget h a i) -> only_allocates h h'.
Proof.
  intros h h' He Hg a l E. destruct (He a l E) as (l' & E' & L).
  rewrite E'. f_equal. assert (Ha : (a < length h)%nat) by (apply nth_error_Some; congruence).
  apply nth_error_ext. intros i. specialize (Hg a (N.of_nat i) Ha).
  unfold hget in Hg. rewrite E, E' in Hg. now rewrite Nat2N.id in Hg.
Qed.

Lemma from_dimension_index : forall l, (column_vector_like l = true -> fst (dim l) = 1) ->
  from_dimension (index_kind l) (dim l) = Ok (index_layout l).
Proof.
  intros l H. destruct l as [d | d | n | n | d s | d s | n s | n s | n];
    cbn [index_kind from_dimension index_layout dim fst snd column_vector_like] in *; auto.
  - specialize (H eq_refl). subst. reflexivity.
  - specialize (H eq_refl). subst. reflexivity.
  - now rewrite N.eqb_refl.
Qed.

Lemma index_layout_dense : forall l, has_strides (index_layout l) = false.
Proof. intros []; reflexivity. Qed.

Lemma index_layout_count : forall l, entry_count (index_layout l) = entry_count l.
Proof. intros l. apply same_kind_count; auto using index_layout_dim, index_layout_kind. Qed.

Lemma index_layout_pos : forall l i, pos (index_layout l) i = pos l i.
Proof. intros l i. apply same_kind_pos; auto using index_layout_dim, index_layout_kind. Qed.

Lemma index_layout_number : forall l p, number (index_layout l) p = number l p.
Proof. intros l i. apply same_kind_number; auto using index_layout_dim, index_layout_kind. Qed.

Lemma index_layout_stored : forall l p, stored (index_layout l) p <-> stored l p.
Proof.
  intros l p. split; apply same_kind_stored; auto using index_layout_dim, index_layout_kind.
Qed.

Lemma distinct_entry_other : forall h b p q v, distinct_cells (bm_layout b) -> base_valid h b ->
  stored (bm_layout b) p -> stored (bm_layout b) q -> p <> q ->
  base_entry (hset h (fst (entry_cell b p)) (snd (entry_cell b p)) v) b q = base_entry h b q.
Proof.
  intros h b p q v Hd Hb Hp Hq Hne. rewrite base_entry_hset by auto.
  destruct ((fst q =? fst p) && (snd q =? snd p)) eqn:E; auto. exfalso. apply Hne.
  destruct p, q. cbn [fst snd] in *. f_equal; lia.
Qed.

Lemma distinct_entry_same : forall h b p v, base_valid h b -> stored (bm_layout b) p ->
  base_entry (hset h (fst (entry_cell b p)) (snd (entry_cell b p)) v) b p = Some v.
Proof.
  intros h b p v Hb Hp. destruct (base_entry_some h b p Hb Hp) as (w & Ew & _).
  unfold base_entry in *. now apply hget_hset_same with w.
Qed.

Lemma eval_ok : forall m h x, valid h x ->
  (column_vector_like (mat_layout x) = true -> fst (mat_dim x) = 1) ->
  entry_count (mat_layout x) * Npos ssize <= isize_max ->
  exists h' b, eval m h x = Ok (h', b) /\ only_allocates h h' /\
    r_alloc (c_region (bm_data b)) = length h /\ base_valid h' b /\
    bm_layout b = index_layout (mat_layout x) /\ container_is_mut (bm_data b) = true /\
    mat_size (@MBase T b) = (Dynamic, Dynamic) /\ length h' = S (length h) /\
    c_region (bm_data b) = mkRegion (length h) 0 (entry_count (mat_layout x)) /\
    c_kind (bm_data b) = VectorContainer /\
    forall p, stored (mat_layout x) p -> base_entry h' b p = entry h x p.
Proof.
  intros m h x Hv Hcol Hn. set (l := mat_layout x) in *.
  pose proof (from_dimension_index l Hcol) as El.
  assert (Ed : dim l = (fst (dim l), snd (dim l))) by apply surjective_pairing.
  rewrite Ed in El.
  destruct (zeros_ok m h (index_kind l) (fst (dim l)) (snd (dim l)) (index_layout l) El) as
    (h1 & b & E1 & Lb & Rb & Cb & Len & (Oa & Vb & Al & Mb & Z) & Eh1 & Reg).
  { now rewrite index_layout_count. }
  unfold eval. fold l. rewrite E1. cbn [bind].
  rewrite number_of_elements_ok by (apply (valid_small x h); auto). cbn [bind].
  rewrite index_layout_count in *.
  set (I := fun (k : N) (hk : heap) => extends h1 hk /\ length hk = length h1 /\
    (forall a i, (a < length h)%nat -> hget hk a i = hget h a i) /\
    (forall p, stored l p -> number l p < k -> base_entry hk b p = entry h x p)).
  assert (Hold1 : forall a i, (a < length h)%nat -> hget h1 a i = hget h a i)
    by now apply only_allocates_hget.
  destruct (for_range_inv _ I (fun index h0 =>
      v <- get1d_unchecked m h0 x index;;
      p <- base_get1d_unchecked_mut m b index;; place_write h0 p v) (entry_count l) h1)
    as (h2 & E2 & (X2 & L2 & O2 & F2)).
  - intros k hk Hk (Xk & Lk & Ok_ & Fk).
    assert (Xh : extends h hk) by (apply extends_trans with h1; auto using only_allocates_extends).
    assert (Vx : valid hk x) by now apply valid_extends with h.
    assert (Vbk : base_valid hk b) by now apply base_valid_extends with h1.
    destruct (get1d_unchecked_ok m hk x k Vx Hk) as (v & -> & Ev). cbn [bind].
    fold l in Ev. destruct (pos_spec l k Hk) as [Hst _]. pose proof (number_pos l k Hk) as Hnum.
    assert (Hst' : stored (bm_layout b) (pos l k)) by (rewrite Lb; now apply index_layout_stored).
    rewrite (base_get1d_unchecked_mut_ok m hk) by (auto; now rewrite Lb, index_layout_count).
    rewrite Lb, index_layout_pos. cbn [bind].
    destruct (place_write_entry hk b (pos l k) v Vbk Hst') as (hk' & Ew & Eh & _).
    exists hk'. split; [exact Ew|]. subst hk'.
    assert (Hd : distinct_cells (bm_layout b)) by (rewrite Lb; apply distinct_dense, index_layout_dense).
    unfold I. splits.
    + apply extends_trans with hk; auto using extends_hset.
    + rewrite <- Lk. apply hset_changes_only.
    + intros a i Ha. rewrite hget_hset_other, Ok_; auto. intros Ea. injection Ea as Ea _.
      rewrite Reg in Ea. cbn [r_alloc] in Ea. lia.
    + intros p Hp Hlt. assert (Hp' : stored (bm_layout b) p) by (rewrite Lb; now apply index_layout_stored).
      destruct (N.eq_dec (number l p) k) as [Ek | Ek].
      * assert (p = pos l k) as ->. { subst k. destruct p as [r c]. symmetry. now apply pos_number. }
        rewrite distinct_entry_same by auto. rewrite <- Ev.
        apply (old_entries_keep h hk); auto.
      * rewrite distinct_entry_other; auto; [apply Fk; auto; lia|]. intros <-. congruence.
  - unfold I. splits; auto using extends_refl. intros p Hp Hlt. lia.
  - unfold I in *. rewrite E2. cbn [bind]. exists h2, b. splits; auto.
    + apply same_hget_only_allocates; auto. apply extends_trans with h1; auto using only_allocates_extends.
    + now rewrite Reg.
    + now apply base_valid_extends with h1.
    + cbn [mat_size]. congruence.
    + rewrite L2, Eh1, app_length. cbn. lia.
    + unfold zeros_from_dim in E1. rewrite El in E1. cbn [bind] in E1.
      rewrite number_of_elements_ok in E1.
      2:{ apply (same_kind_small l); rewrite ?index_layout_dim, ?index_layout_kind; auto.
          apply (valid_small x h); auto. }
      cbn [bind] in E1. rewrite index_layout_count in E1. rewrite vector_container_new_ok in E1 by auto.
      cbn [bind] in E1. apply bind_ok in E1 as (b1 & Eb & E1). injection E1 as <- <-.
      unfold from_data in Eb. inv_ok. reflexivity.
    + intros p Hp. apply F2; auto. destruct p. now apply number_bound.
Qed.

Lemma c26 : forall m h x, valid h x ->
  (column_vector_like (mat_layout x) = true -> fst (mat_dim x) = 1) ->
  (entry_count (mat_layout x) * Npos ssize <= isize_max ->
   exists h' b, eval m h x = Ok (h', b) /\
     only_allocates h h' /\ (length h <= r_alloc (c_region (bm_data b)))%nat /\
     keeps_matrices h h' /\ base_valid h' b /\ container_is_mut (bm_data b) = true /\
     dim (bm_layout b) = mat_dim x /\ index_kind (bm_layout b) = index_kind (mat_layout x) /\
     forall p, stored (mat_layout x) p ->
       stored (bm_layout b) p /\ base_entry h' b p = entry h x p) /\
  (isize_max < entry_count (mat_layout x) * Npos ssize -> panics (eval m h x)).
Proof.
  intros m h x Hv Hcol. split; intros Hn.
  - destruct (eval_ok m h x Hv Hcol Hn) as (h' & b & E & Oa & Ra & Vb & Lb & Mb & _ & _ & _ & _ & F).
    exists h', b. splits; auto.
    + lia.
    + now apply only_allocates_keeps.
    + rewrite Lb. apply index_layout_dim.
    + rewrite Lb. apply index_layout_kind.
    + intros p Hp. split; auto. rewrite Lb. now apply index_layout_stored.
  - unfold panics, eval. unfold zeros_from_dim. rewrite <- surjective_pairing.
    rewrite from_dimension_index by auto. cbn [bind].
    rewrite number_of_elements_ok.
    2:{ apply (same_kind_small (mat_layout x)); rewrite ?index_layout_dim, ?index_layout_kind; auto.
        apply (valid_small x h); auto. }
    cbn [bind]. rewrite index_layout_count. unfold vector_container_new.
    now replace (entry_count (mat_layout x) * N.pos ssize <=? isize_max) with false by lia.
Qed.

Lemma c26_column : forall m h x, column_vector_like (mat_layout x) = true -> fst (mat_dim x) <> 1 ->
  eval m h x = Panic.
Proof.
  intros m h x Hc Hd. unfold mat_dim in Hd. apply N.eqb_neq in Hd. unfold eval, zeros_from_dim.
  destruct (mat_layout x) as [d | d | n | n | d s | d s | n s | n s | n];
    cbn [column_vector_like] in Hc; try discriminate;
    cbn [index_kind from_dimension dim fst snd] in *; now rewrite Hd.
Qed.

(** ** C29 *)

Lemma c29 : forall m h x r c i, valid h x -> stored (mat_layout x) (r, c) ->
  convert_2d_1d m (mat_layout x) r c = Ok i ->
  get1d m h x i = get m h x r c /\ returns_entry (get m h x r c) (entry h x (r, c)).
Proof. intros m h x r c i Hv Hp E. split; [now apply c05_get | now apply get_stored]. Qed.

Lemma c29_expr : forall m h d k e x r c i, all_leaves (leaf_ok h d k) e -> build e = Ok x ->
  stored (mat_layout x) (r, c) -> convert_2d_1d m (mat_layout x) r c = Ok i ->
  get1d m h x i = get m h x r c /\
  returns_entry (get m h x r c) (denote (base_entry h) e (r, c)).
Proof.
  intros m h d k e x r c i He Ex Hp Ei. destruct (c25 m h d k e He) as (x' & Ex' & V & _ & _ & G).
  rewrite Ex in Ex'. injection Ex' as <-. split; [now apply c29 | now apply G].
Qed.

(** ** C30, C31 *)

Lemma call_closure_ok : forall (St : Type) m h b (f : closure St) k s, base_valid h b ->
  k < entry_count (bm_layout b) ->
  exists v, base_entry h b (pos (bm_layout b) k) = Some v /\
    call_closure m b f k (h, s) =
    let '(s', v', panicked) := f s v in
    Ok (hset h (fst (entry_cell b (pos (bm_layout b) k))) (snd (entry_cell b (pos (bm_layout b) k))) v', s', panicked).
Proof.
  intros St m h b f k s Hb Hk. destruct (pos_spec _ _ Hk) as [Hp _].
  destruct (base_entry_some h b _ Hb Hp) as (v & Ev & _). exists v. split; auto.
  unfold call_closure. rewrite (base_get1d_unchecked_mut_ok m h) by auto. cbn [bind].
  unfold place_read, place_of. cbn [pl_alloc pl_index]. unfold base_entry in Ev. rewrite Ev. cbn [bind].
  destruct (f s v) as [[s' v'] pn].
  rewrite (place_write_ok h _ v' v) by auto. reflexivity.
Qed.

(** The entries from number [k] on. *)
Definition tail_entries h b (k : N) (vs : list T) : Prop :=
  k + N.of_nat (length vs) = entry_count (bm_layout b) /\
  forall p, stored (bm_layout b) p -> k <= number (bm_layout b) p ->
    nth_error vs (N.to_nat (number (bm_layout b) p - k)) = base_entry h b p.

Lemma tail_cons : forall h b k v vs, tail_entries h b k (v :: vs) ->
  k < entry_count (bm_layout b) -> base_entry h b (pos (bm_layout b) k) = Some v.
Proof.
  intros h b k v vs [_ H] Hk. destruct (pos_spec _ _ Hk) as [Hp _].
  rewrite <- H; auto; rewrite number_pos by auto; [|lia].
  now rewrite N.sub_diag.
Qed.

Lemma for_each_loop_ok : forall (St : Type) m b (f : closure St) vs h k s,
  base_valid h b -> distinct_cells (bm_layout b) -> tail_entries h b k vs ->
  exists h', for_each_loop m b f (length vs) k (h, s) =
      (let '(s', ws, pn) := visit f s vs in Ok (h', s', pn)) /\
    tail_entries h' b k (snd (fst (visit f s vs))) /\
    changes_only (fun q => exists p, stored (bm_layout b) p /\ k <= number (bm_layout b) p /\
                                     q = entry_cell b p) h h'.
Proof.
  intros St m b f vs. induction vs as [|v vs IH]; intros h k s Hb Hd Ht; cbn [visit for_each_loop length].
  - exists h. splits; auto. apply changes_only_refl.
  - assert (Hk : k < entry_count (bm_layout b)) by (destruct Ht as [Hl _]; cbn [length] in Hl; lia).
    destruct (call_closure_ok St m h b f k s Hb Hk) as (v0 & Ev0 & ->).
    pose proof (tail_cons h b k v vs Ht Hk) as Ev. rewrite Ev in Ev0. injection Ev0 as <-.
    destruct (f s v) as [[s1 v1] pn1] eqn:Ef. cbn [bind].
    destruct (pos_spec _ _ Hk) as [Hp _]. pose proof (number_pos _ _ Hk) as Hnum.
    set (pk := pos (bm_layout b) k) in *.
    set (h1 := hset h (fst (entry_cell b pk)) (snd (entry_cell b pk)) v1).
    assert (B1 : base_valid h1 b) by (apply base_valid_extends with h; auto; apply extends_hset).
    assert (C1 : changes_only (fun q => exists p, stored (bm_layout b) p /\ k <= number (bm_layout b) p /\
                                     q = entry_cell b p) h h1).
    { eapply changes_only_weaken; [|apply hset_changes_only]. intros q ->.
      exists pk. splits; auto; try lia. }
    assert (T1 : tail_entries h1 b (k + 1) vs).
    { destruct Ht as [Hl He]. split; [cbn [length] in Hl; lia|]. intros p Hq Hge.
      unfold h1. rewrite distinct_entry_other; auto.
      - rewrite <- He by (auto; lia).
        replace (N.to_nat (number (bm_layout b) p - k)) with
          (S (N.to_nat (number (bm_layout b) p - (k + 1)))) by lia. reflexivity.
      - intros <-. lia. }
    assert (Step : forall h2 ws, tail_entries h2 b (k + 1) ws -> base_entry h2 b pk = Some v1 ->
              tail_entries h2 b k (v1 :: ws)).
    { intros h2 ws [Hl He] Ek. split; [cbn [length]; lia|]. intros p Hq Hge.
      destruct (N.eq_dec (number (bm_layout b) p) k) as [Eq | Eq].
      - assert (p = pk) as ->.
        { unfold pk. rewrite <- Eq. destruct p as [r c]. symmetry. now apply pos_number. }
        rewrite Hnum, N.sub_diag. cbn. now rewrite Ek.
      - replace (N.to_nat (number (bm_layout b) p - k)) with
          (S (N.to_nat (number (bm_layout b) p - (k + 1)))) by lia. cbn [nth_error].
        apply He; auto. lia. }
    destruct pn1.
    + exists h1. splits; auto. cbn [fst snd]. apply Step; auto. unfold h1. now apply distinct_entry_same.
    + destruct (IH h1 (k + 1) s1 B1 Hd T1) as (h2 & E2 & F2 & C2). rewrite E2.
      destruct (visit f s1 vs) as [[s2 ws] pn2]. cbn [fst snd] in *.
      exists h2. splits; auto.
      * apply Step; auto. unfold base_entry. destruct C2 as (_ & _ & C2). rewrite C2.
        -- apply (distinct_entry_same h b pk v1); auto.
        -- rewrite <- surjective_pairing. intros (p & Hq & Hge & Ec).
           apply entry_cell_inj in Ec; auto. subst p. lia.
      * apply changes_only_trans with (1 := C1) in C2. eapply changes_only_weaken; [|exact C2].
        intros q [(p & ? & ? & ?) | (p & ? & ? & ?)]; exists p; splits; auto. lia.
Qed.

Lemma entries_listed : forall h b, base_valid h b -> exists vs, lists_entries h b vs.
Proof.
  intros h b Hb.
  assert (X : forall n k, k + N.of_nat n = entry_count (bm_layout b) -> exists vs, length vs = n /\ tail_entries h b k vs).
  { intros n. induction n as [|n IH]; intros k Hk.
    - exists []. split; auto. split; auto. intros [r c] Hp Hle. pose proof (number_bound _ _ _ Hp). lia.
    - destruct (IH (k + 1)) as (vs & L & [Hl He]); [lia|].
      assert (Hlt : k < entry_count (bm_layout b)) by lia.
      destruct (pos_spec _ _ Hlt) as [Hp _]. destruct (base_entry_some h b _ Hb Hp) as (v & Ev & _).
      exists (v :: vs). split; [cbn; congruence|]. split; [cbn [length]; lia|]. intros p Hq Hge.
      destruct (N.eq_dec (number (bm_layout b) p) k) as [Eq | Eq].
      + assert (p = pos (bm_layout b) k) as -> by (rewrite <- Eq; destruct p; symmetry; now apply pos_number).
        rewrite number_pos by auto. rewrite N.sub_diag. cbn. now rewrite Ev.
      + replace (N.to_nat (number (bm_layout b) p - k)) with
          (S (N.to_nat (number (bm_layout b) p - (k + 1)))) by lia. cbn [nth_error].
        apply He; auto. lia. }
  destruct (X (N.to_nat (entry_count (bm_layout b))) 0) as (vs & L & [Hl He]); [lia|].
  exists vs. split; [lia|]. intros p Hp. rewrite <- He by (auto; lia). now rewrite N.sub_0_r.
Qed.

Lemma tail_lists : forall h b vs, lists_entries h b vs <-> tail_entries h b 0 vs.
Proof.
  intros h b vs. split; intros [Hl He]; split; auto; try lia.
  - intros p Hp _. rewrite N.sub_0_r. auto.
  - intros p Hp. rewrite <- He by (auto; lia). now rewrite N.sub_0_r.
Qed.

Lemma for_each_ok : forall (St : Type) m h b (f : closure St) s vs,
  base_valid h b -> distinct_cells (bm_layout b) -> lists_entries h b vs ->
  exists h', for_each m h b f s = (let '(s', ws, pn) := visit f s vs in Ok (h', s', pn)) /\
    lists_entries h' b (snd (fst (visit f s vs))) /\
    changes_only (fun q => exists p, stored (bm_layout b) p /\ q = entry_cell b p) h h'.
Proof.
  intros St m h b f s vs Hb Hd Hl. unfold for_each.
  rewrite number_of_elements_ok by apply Hb. cbn [bind].
  replace (N.to_nat (entry_count (bm_layout b))) with (length vs) by (destruct Hl; lia).
  destruct (for_each_loop_ok St m b f vs h 0 s Hb Hd) as (h' & E & T1 & C1); [now apply tail_lists|].
  exists h'. splits; auto.
  - now apply tail_lists.
  - eapply changes_only_weaken; [|exact C1]. intros q (p & ? & _ & ?). eauto.
Qed.

Lemma c30 : forall (St : Type) m h b (f : closure St) s,
  base_valid h b -> no_aliasing (bm_layout b) ->
  exists vs, lists_entries h b vs /\
  forall s' ws panicked, visit f s vs = (s', ws, panicked) ->
  exists h', for_each m h b f s = Ok (h', s', panicked) /\ lists_entries h' b ws /\
    changes_only (fun q => exists p, stored (bm_layout b) p /\ q = entry_cell b p) h h'.
Proof.
  intros St m h b f s Hb Hd. destruct (entries_listed h b Hb) as (vs & Hl). exists vs. split; auto.
  intros s' ws pn E. destruct (for_each_ok St m h b f s vs Hb (distinct_no_aliasing _ Hd) Hl) as (h' & E' & L & C).
  rewrite E in *. exists h'. auto.
Qed.

(** Layouts with coinciding cells included. *)
Definition cells_from b (k n : nat) : list (nat * N) :=
  map (fun i => entry_cell b (pos (bm_layout b) (N.of_nat i))) (seq k n).

Lemma for_each_cells : forall (St : Type) m b (f : closure St) n k h s, base_valid h b ->
  N.of_nat (k + n) <= entry_count (bm_layout b) ->
  exists h' s' pn, for_each_loop m b f n (N.of_nat k) (h, s) = Ok (h', s', pn) /\
    visit_cells f h s (cells_from b k n) = Some (h', s', pn).
Proof.
  intros St m b f n. induction n as [|n IH]; intros k h s Hb Hk.
  - exists h, s, false. auto.
  - unfold cells_from. cbn [for_each_loop seq map visit_cells].
    destruct (call_closure_ok St m h b f (N.of_nat k) s Hb ltac:(lia)) as (v & Ev & ->).
    unfold base_entry in Ev.
    destruct (entry_cell b (pos (bm_layout b) (N.of_nat k))) as [a i]. cbn [fst snd] in *. rewrite Ev.
    destruct (f s v) as [[s1 v1] pn1]. cbn [bind]. destruct pn1; [eauto|].
    replace (N.of_nat k + 1) with (N.of_nat (S k)) by lia.
    apply IH; [|lia]. apply base_valid_extends with h; auto. apply extends_hset.
Qed.

Lemma cells_listed : forall b, lists_cells b (cells_from b 0 (N.to_nat (entry_count (bm_layout b)))).
Proof.
  intros b. unfold cells_from. split.
  - rewrite map_length, seq_length. lia.
  - intros [r c] Hp. pose proof (number_bound _ _ _ Hp) as Hn.
    rewrite nth_error_map, nth_error_seq by lia.
    cbn [option_map Nat.add]. rewrite N2Nat.id, pos_number; auto.
Qed.

Lemma c30_cells : forall (St : Type) m h b (f : closure St) s, base_valid h b ->
  exists qs h' s' pn, lists_cells b qs /\ visit_cells f h s qs = Some (h', s', pn) /\
    for_each m h b f s = Ok (h', s', pn).
Proof.
  intros St m h b f s Hb. exists (cells_from b 0 (N.to_nat (entry_count (bm_layout b)))).
  destruct (for_each_cells St m b f (N.to_nat (entry_count (bm_layout b))) 0 h s Hb) as
    (h' & s' & pn & E & V); [lia|].
  exists h', s', pn. splits; auto using cells_listed. unfold for_each.
  now rewrite number_of_elements_ok by apply Hb.
Qed.

Lemma visit_fill : forall (G : Type) (random_scalar : G -> T * G) vs g,
  visit (fun g _ => let '(v, g') := random_scalar g in (g', v, false)) g vs =
  let '(xs, g') := samples random_scalar (length vs) g in (g', xs, false).
Proof.
  intros G rs vs. induction vs as [|v vs IH]; intros g; cbn [visit samples length]; auto.
  destruct (rs g) as [x g1]. rewrite IH. now destruct (samples rs (length vs) g1).
Qed.

Lemma samples_length : forall (R G : Type) (sample : G -> R * G) n g,
  length (fst (samples sample n g)) = n.
Proof.
  intros R G sample n. induction n as [|n IH]; intros g; cbn [samples]; auto.
  destruct (sample g) as [x g1]. specialize (IH g1). destruct (samples sample n g1). cbn in *. congruence.
Qed.

Lemma c31 : forall (G : Type) (random_scalar : G -> T * G) m h b g,
  base_valid h b -> no_aliasing (bm_layout b) ->
  exists h' xs g', samples random_scalar (N.to_nat (entry_count (bm_layout b))) g = (xs, g') /\
    fill_from_rand m h b random_scalar g = Ok (h', g', false) /\ lists_entries h' b xs /\
    changes_only (fun q => exists p, stored (bm_layout b) p /\ q = entry_cell b p) h h'.
Proof.
  intros G rs m h b g Hb Hd. destruct (entries_listed h b Hb) as (vs & Hl).
  destruct (for_each_ok G m h b (fun g _ => let '(v, g') := rs g in (g', v, false)) g vs Hb
             (distinct_no_aliasing _ Hd) Hl) as (h' & E & L & C).
  rewrite visit_fill in *. replace (length vs) with (N.to_nat (entry_count (bm_layout b))) in *
    by (destruct Hl; lia).
  destruct (samples rs (N.to_nat (entry_count (bm_layout b))) g) as [xs g'] eqn:Es.
  exists h', xs, g'. splits; auto.
Qed.

(** Macros *)
Lemma rand_mat_ok : forall (G : Type) (random_scalar : G -> T * G) m h g o d,
  fst d * snd d * Npos ssize <= isize_max ->
  exists h' b xs g', samples random_scalar (N.to_nat (fst d * snd d)) g = (xs, g') /\
    rand_mat_macro m h random_scalar g o d = Ok (h', b, g') /\
    bm_layout b = dense_layout o d /\ base_valid h' b /\ lists_entries h' b xs /\ only_allocates h h'.
Proof.
  intros G rs m h g o [rows cols] Hn. cbn [fst snd] in *.
  destruct (zeros_ok m h (match o with ByRow => KRowMajor | ByColumn => KColumnMajor end) rows cols
    (dense_layout o (rows, cols))) as (h1 & b & E & Lb & _ & _ & _ & (Oa & Vb & Al & Mb & _) & Eh & Reg).
  { now destruct o. }
  { destruct o; exact Hn. }
  destruct (c31 G rs m h1 b g Vb) as (h2 & xs & g' & Es & Ef & L & C).
  { rewrite Lb. unfold no_aliasing. destruct o; discriminate. }
  assert (Hc : entry_count (bm_layout b) = rows * cols) by (rewrite Lb; now destruct o).
  rewrite Hc in Es. exists h2, b, xs, g'. splits; auto.
  - unfold rand_mat_macro, mat_macro. cbn [fst snd]. rewrite E. cbn [bind]. rewrite Ef. reflexivity.
  - apply base_valid_extends with h1; auto. apply C.
  - destruct C as (L2 & X2 & F2). apply same_hget_only_allocates.
    + apply extends_trans with h1; auto using only_allocates_extends.
    + intros a i Ha. rewrite F2; [now apply only_allocates_hget|].
      intros (p & _ & Ep). injection Ep as Ea _. rewrite Reg in Ea. cbn [r_alloc] in Ea. lia.
Qed.

Lemma rand_vector_ok : forall (G : Type) (random_scalar : G -> T * G) m h g o n,
  n * Npos ssize <= isize_max ->
  exists h' b xs g', samples random_scalar (N.to_nat n) g = (xs, g') /\
    rand_vector_macro m h random_scalar g o n = Ok (h', b, g') /\
    bm_layout b = (match o with ByRow => RowVector n | ByColumn => ColumnVector n end) /\
    base_valid h' b /\ lists_entries h' b xs /\ only_allocates h h'.
Proof.
  intros G rs m h g o n Hn.
  assert (X : exists h1 b, vector_macro m h o n = Ok (h1, b) /\
    bm_layout b = (match o with ByRow => RowVector n | ByColumn => ColumnVector n end) /\
    fresh_zeros h h1 b /\ c_region (bm_data b) = mkRegion (length h) 0 n).
  { destruct o; cbn [vector_macro].
    - destruct (row_vector_ok m h n Hn) as (h1 & b & E & Lb & _ & Z & _ & R). exists h1, b. auto.
    - destruct (column_vector_ok m h n Hn) as (h1 & b & E & Lb & _ & Z & _ & R). exists h1, b. auto. }
  destruct X as (h1 & b & E & Lb & (Oa & Vb & Al & Mb & _) & Reg).
  destruct (c31 G rs m h1 b g Vb) as (h2 & xs & g' & Es & Ef & L & C).
  { rewrite Lb. unfold no_aliasing. destruct o; discriminate. }
  assert (Hc : entry_count (bm_layout b) = n).
  { rewrite Lb. destruct o; cbn [entry_count dim fst snd]; lia. }
  rewrite Hc in Es. exists h2, b, xs, g'. splits; auto.
  - unfold rand_vector_macro. rewrite E. cbn [bind]. rewrite Ef. reflexivity.
  - apply base_valid_extends with h1; auto. apply C.
  - destruct C as (L2 & X2 & F2). apply same_hget_only_allocates.
    + apply extends_trans with h1; auto using only_allocates_extends.
    + intros a i Ha. rewrite F2; [now apply only_allocates_hget|].
      intros (p & _ & Ep). injection Ep as Ea _. rewrite Reg in Ea. cbn [r_alloc] in Ea. lia.
Qed.

(** ** C36 for expressions *)

Lemma denote_same : forall h h' e f p, same_shape (fun b c => same_matrix h b h' c) e f ->
  all_leaves (fun b => stored (bm_layout b) p) e ->
  denote (base_entry h) e p = denote (base_entry h') f p.
Proof.
  intros h h' e. induction e as [b | q e IHe r f IHf | s q e IHe | q e IHe s];
    intros [b' | q' e' r' f' | s' q' e' | q' e' s'] p H Hp; cbn [same_shape] in H; try contradiction;
    cbn [denote].
  - apply Forall_inv in Hp. now apply H.
  - destruct H as [H1 H2]. apply all_leaves_plus in Hp as [Hp1 Hp2]. rewrite (IHe e'), (IHf f'); auto.
  - destruct H as [-> H]. now rewrite (IHe e').
  - destruct H as [-> H]. now rewrite (IHe e').
Qed.

Lemma same_shape_leaves : forall h h' d k e f, same_shape (fun b c => same_matrix h b h' c) e f ->
  all_leaves (fun b => dim (bm_layout b) = d /\ index_kind (bm_layout b) = k) e ->
  all_leaves (fun b => dim (bm_layout b) = d /\ index_kind (bm_layout b) = k) f.
Proof.
  intros h h' d k e. induction e as [b | q e IHe r f IHf | s q e IHe | q e IHe s];
    intros [b' | q' e' r' f' | s' q' e' | q' e' s'] H Hp; cbn [same_shape] in H; try contradiction.
  - apply Forall_inv in Hp. constructor; [|constructor]. destruct H as (H1 & H2 & _).
    rewrite <- H1, <- H2. auto.
  - destruct H as [H1 H2]. apply all_leaves_plus in Hp as [Hp1 Hp2]. apply all_leaves_plus. split; eauto.
  - destruct H as [_ H]. now apply (IHe e').
  - destruct H as [_ H]. now apply (IHe e').
Qed.

Lemma c36 : forall m h h' d k e f, all_leaves (leaf_ok h d k) e -> all_leaves (leaf_ok h' d k) f ->
  same_shape (fun b c => same_matrix h b h' c) e f ->
  exists x y, build e = Ok x /\ build f = Ok y /\ mat_dim x = mat_dim y /\
    forall i j, get m h x i j = get m h' y i j.
Proof.
  intros m h h' d k e f He Hf Hs.
  destruct (c25 m h d k e He) as (x & Ex & Vx & Dx & Kx & Gx).
  destruct (c25 m h' d k f Hf) as (y & Ey & Vy & Dy & Ky & Gy).
  exists x, y. splits; auto; [congruence|]. intros i j.
  assert (Hst : forall b, leaf_ok h d k b -> stored (mat_layout x) (i, j) -> stored (bm_layout b) (i, j)).
  { intros b (_ & Hd & Hk). unfold mat_dim in Dx. apply same_kind_stored; congruence. }
  destruct (stored_dec (mat_layout x) (i, j)) as [Hp | Hp].
  - assert (Hq : stored (mat_layout y) (i, j)).
    { unfold mat_dim in *. apply same_kind_stored with (mat_layout x); congruence. }
    destruct (Gx i j) as [Gx1 _]. destruct (Gy i j) as [Gy1 _].
    destruct (Gx1 Hp) as (v & -> & Ev). destruct (Gy1 Hq) as (w & -> & Ew).
    rewrite (denote_same h h' e f) in Ev; auto; [congruence|].
    eapply Forall_impl; [|exact He]. intros b Hb. now apply Hst.
  - assert (Hq : ~ stored (mat_layout y) (i, j)).
    { intros Hq. apply Hp. unfold mat_dim in *. apply same_kind_stored with (mat_layout y); congruence. }
    destruct (Gx i j) as [_ Gx2]. destruct (Gy i j) as [_ Gy2].
    specialize (Gx2 Hp). specialize (Gy2 Hq). unfold panics in *. congruence.
Qed.

End ExprProofs.

Lemma complex_samples : forall (R G : Type) (sample : G -> R * G) n g,
  exists xs g', samples sample (2 * n) g = (xs, g') /\
    exists zs, samples (random_scalar_complex sample) n g = (zs, g') /\ length zs = n /\
      forall i, (i < n)%nat -> exists a b, nth_error zs i = Some (a, b) /\
        nth_error xs (2 * i) = Some a /\ nth_error xs (2 * i + 1) = Some b.
Proof.
  intros R G sample n. induction n as [|n IH]; intros g.
  - exists [], g. split; auto. exists []. splits; auto. intros i Hi. lia.
  - replace (2 * S n)%nat with (S (S (2 * n))) by lia. cbn [samples]. unfold random_scalar_complex at 1.
    destruct (sample g) as [x g1]. destruct (sample g1) as [y g2].
    destruct (IH g2) as (xs & g' & -> & zs & -> & Hl & H). exists (x :: y :: xs), g'. split; auto.
    exists ((x, y) :: zs). splits; auto; [cbn; congruence|]. intros [|i] Hi.
    + exists x, y. auto.
    + destruct (H i ltac:(lia)) as (a & b & E1 & E2 & E3). exists a, b.
      replace (2 * S i)%nat with (S (S (2 * i))) by lia. auto.
Qed.

Lemma c31_real : forall (T G : Type) (sample : G -> T * G) m (h : @heap T) b g,
  base_valid h b -> no_aliasing (bm_layout b) ->
  exists h' xs g', samples sample (N.to_nat (entry_count (bm_layout b))) g = (xs, g') /\
    fill_from_rand m h b (random_scalar_real sample) g = Ok (h', g', false) /\ lists_entries h' b xs.
Proof.
  intros T G sample m h b g Hb Hn. destruct (c31 G sample m h b g Hb Hn) as (h' & xs & g' & E1 & E2 & L & _).
  exists h', xs, g'. auto.
Qed.

Lemma c31_complex : forall (R G : Type) (sample : G -> R * G) m (h : @heap (R * R)) b g,
  base_valid h b -> no_aliasing (bm_layout b) ->
  exists h' xs g', samples sample (2 * N.to_nat (entry_count (bm_layout b))) g = (xs, g') /\
    fill_from_rand m h b (random_scalar_complex sample) g = Ok (h', g', false) /\
    forall p, stored (bm_layout b) p -> exists re im,
      base_entry h' b p = Some (re, im) /\
      nth_error xs (2 * N.to_nat (number (bm_layout b) p)) = Some re /\
      nth_error xs (2 * N.to_nat (number (bm_layout b) p) + 1) = Some im.
Proof.
  intros R G sample m h b g Hb Hn.
  destruct (c31 G (random_scalar_complex sample) m h b g Hb Hn) as (h' & zs & g' & E1 & E2 & [_ L] & _).
  destruct (complex_samples R G sample (N.to_nat (entry_count (bm_layout b))) g) as
    (xs & g2 & E3 & zs' & E4 & Hl & H).
  rewrite E1 in E4. injection E4 as <- <-. exists h', xs, g'. splits; auto. intros [r c] Hp.
  pose proof (number_bound _ _ _ Hp) as Hlt.
  destruct (H (N.to_nat (number (bm_layout b) (r, c))) ltac:(lia)) as (a & a' & F1 & F2 & F3).
  exists a, a'. splits; auto. now rewrite <- L.
Qed.
