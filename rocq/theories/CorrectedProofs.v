(** * Proofs about [Corrected]. *)

From Coq Require Import Lia ZifyBool ZifyNat ZifyN.
From Verif Require Import Machine MachineFacts F64 Layouts Memory Matrix Spec MatrixSpec ExprSpec.
From Verif Require Import LayoutFacts LayoutProofs MemoryFacts AccessFacts AccessProofs ConstructorProofs BlockProofs ExprProofs.
From Verif Require Import Corrected.
Local Open Scope N_scope.

(** ** Positions *)

Lemma root_tri : forall m i, 2 * i < usize_mod ->
  exists p, triangle_root m i = Ok p /\ tri p <= i /\ i < tri (p + 1).
Proof.
  intros m i H. unfold triangle_root. rewrite umul_ok by auto. cbn [bind].
  set (s := N.sqrt (2 * i)). pose proof (N.sqrt_spec (2 * i) (N.le_0_l _)) as [L U]. fold s in L, U.
  rewrite usize_mod_val in H. assert (Hs : s < 4294967296) by nia.
  rewrite uadd_ok by (rewrite usize_mod_val; lia). cbn [bind].
  rewrite umul_ok by (rewrite usize_mod_val; nia). cbn [bind].
  pose proof (tri_double s) as Ds. pose proof (tri_double (s + 1)) as Ds1.
  destruct (N.leb_spec (s * (s + 1)) (2 * i)) as [C|C].
  - exists s. split; [reflexivity|]. split; nia.
  - assert (Hp : 1 <= s) by nia. rewrite usub_ok by auto. exists (s - 1). split; [reflexivity|].
    pose proof (tri_double (s - 1)) as Dp. replace (s - 1 + 1) with s in * by lia. split; nia.
Qed.

Lemma root_ok : forall m i p, 2 * i < usize_mod -> tri p <= i -> i < tri (p + 1) -> triangle_root m i = Ok p.
Proof.
  intros m i p H H1 H2. destruct (root_tri m i H) as (q & -> & Q1 & Q2). f_equal. now apply (tri_unique q p i).
Qed.

Lemma root_spec : forall m i, 2 * i < usize_mod ->
  exists p, triangle_root m i = Ok p /\ p * (p + 1) <= 2 * i /\ 2 * i < (p + 1) * (p + 2).
Proof.
  intros m i H. destruct (root_tri m i H) as (p & E & L & U). exists p. split; [exact E|].
  pose proof (tri_double p). pose proof (tri_double (p + 1)). nia.
Qed.

Lemma upper_1d_2d : forall m n i p, n * (n + 1) < usize_mod -> i < tri n -> tri p <= i -> i < tri (p + 1) ->
  upper_triangular_1d_2d_with (triangle_root m) m n i = Ok (n - 1 - p, n - 1 - p + (i - tri p)).
Proof.
  intros m n i p Hs Hi L U. pose proof (tri_double n) as Dn. pose proof (tri_double p) as Dp.
  assert (Hp : p < n).
  { destruct (N.lt_ge_cases p n); auto. pose proof (tri_mono n p). lia. }
  unfold upper_triangular_1d_2d_with. rewrite (root_ok m i p) by (auto; lia). cbn [bind].
  rewrite usize_mod_val in Hs.
  rewrite !usub_ok by lia. cbn [bind]. rewrite !usub_ok by lia. cbn [bind].
  rewrite uadd_ok by (rewrite usize_mod_val; nia). cbn [bind].
  rewrite (uadd_ok m p 1) by (rewrite usize_mod_val; nia). cbn [bind].
  rewrite umul_ok by (rewrite usize_mod_val; nia). cbn [bind].
  unfold udiv. cbn [N.eqb bind]. fold (tri p). rewrite usub_ok by lia. cbn [bind]. do 2 f_equal. lia.
Qed.

Lemma corrected_pos : forall m l i, small l -> i < entry_count l -> corrected_1d_2d m l i = Ok (pos l i).
Proof.
  intros m l i Hs Hi. destruct l as [d | d | n | n | d s | d s | n s | n s | n]; try reflexivity.
  1, 2, 3, 4: now apply convert_1d_2d_matrix.
  cbn [corrected_1d_2d small entry_count] in *. fold (tri n) in Hi.
  assert (Hst := pos_spec (UpperTriangular n) i Hi). destruct Hst as [Hst Hn]. destruct (pos (UpperTriangular n) i) as [r c] eqn:E.
  destruct Hst as [[A B] C]. cbn [fst snd dim idx] in *. specialize (C eq_refl).
  pose proof (tri_succ (n - 1 - r)) as S1.
  rewrite (upper_1d_2d m n i (n - 1 - r)) by (auto; lia). do 2 f_equal; lia.
Qed.

Lemma c73_positions : forall m l, small l ->
  bijective (entry_count l) (stored l) (corrected_1d_2d m l) (fun p => convert_2d_1d m l (fst p) (snd p)).
Proof.
  intros m l Hs. split.
  - intros i Hi. exists (pos l i). split; [now apply corrected_pos|]. destruct (pos_spec l i Hi) as [Hst Hn]. split; auto.
    rewrite convert_2d_1d_ok by (auto; now rewrite <- surjective_pairing). now rewrite Hn.
  - intros [r c] Hp. exists (idx l r c). cbn [fst snd]. pose proof (idx_bound l r c Hp). split; [now apply convert_2d_1d_ok|]. split; auto.
    rewrite corrected_pos by auto. now rewrite idx_pos.
Qed.

(** ** Triangles from the first row *)

Lemma triangle_ok : forall m k, k * (k + 1) < usize_mod -> triangle m k = Ok (tri k).
Proof.
  intros m k H. unfold triangle. rewrite usize_mod_val in H. rewrite uadd_ok by (rewrite usize_mod_val; nia). cbn [bind].
  rewrite umul_ok by (now rewrite usize_mod_val). reflexivity.
Qed.

(** The entries of the rows above a row. *)
Definition above (n r : N) : N := tri n - tri (n - r).

Lemma above_step : forall n r, r < n -> above n (r + 1) = above n r + (n - r).
Proof.
  intros n r H. unfold above. pose proof (tri_succ (n - (r + 1))) as E. replace (n - (r + 1) + 1) with (n - r) in E by lia.
  pose proof (tri_mono (n - r) n). lia.
Qed.

Lemma above_mono : forall n r r', r <= r' -> r' <= n -> above n r <= above n r'.
Proof. intros n r r' H H'. unfold above. pose proof (tri_mono (n - r') (n - r)). lia. Qed.

Lemma packed_ok : forall m n r c, n * (n + 1) < usize_mod -> r <= c -> c < n -> packed_2d_1d m n r c = Ok (above n r + (c - r)).
Proof.
  intros m n r c H Hr Hc. unfold packed_2d_1d. replace (r <=? c) with true by lia. cbn [assert_ bind].
  rewrite triangle_ok by auto. cbn [bind]. rewrite usub_ok by lia. cbn [bind].
  rewrite triangle_ok by nia. cbn [bind]. pose proof (tri_mono (n - r) n). rewrite usub_ok by lia. cbn [bind].
  pose proof (tri_double n). fold (above n r). assert (above n r <= tri n) by (unfold above; lia).
  rewrite uadd_ok by (rewrite usize_mod_val in *; nia). cbn [bind]. rewrite usub_ok by lia. f_equal. lia.
Qed.

Lemma packed_bound : forall n r c, r <= c -> c < n -> above n r + (c - r) < tri n.
Proof.
  intros n r c Hr Hc. pose proof (above_step n r). pose proof (above_mono n (r + 1) n). assert (above n n = tri n).
  { unfold above. replace (n - n) with 0 by lia. cbn. lia. }
  lia.
Qed.

Lemma packed_back : forall m n i, n * (n + 1) < usize_mod -> i < tri n ->
  exists r c, packed_1d_2d m n i = Ok (r, c) /\ r <= c /\ c < n /\ above n r + (c - r) = i.
Proof.
  intros m n i H Hi. unfold packed_1d_2d. pose proof (tri_double n) as Dn. rewrite triangle_ok by auto. cbn [bind].
  rewrite usub_ok by lia. cbn [bind]. rewrite usub_ok by lia. cbn [bind].
  destruct (root_tri m (tri n - 1 - i)) as (p & -> & L & U); [lia|]. cbn [bind].
  assert (Hp : p < n).
  { destruct (N.lt_ge_cases p n); auto. pose proof (tri_mono n p). lia. }
  rewrite usub_ok by lia. cbn [bind]. rewrite usub_ok by lia. cbn [bind].
  rewrite uadd_ok by (rewrite usize_mod_val in *; nia). cbn [bind]. rewrite triangle_ok by nia. cbn [bind].
  pose proof (tri_mono (p + 1) n). pose proof (tri_succ p) as Sp. rewrite usub_ok by lia. cbn [bind]. rewrite usub_ok by lia. cbn [bind].
  rewrite uadd_ok by (rewrite usize_mod_val in *; nia). cbn [bind].
  exists (n - 1 - p), (n - 1 - p + (i - (tri n - tri (p + 1)))). split; [reflexivity|].
  unfold above. replace (n - (n - 1 - p)) with (p + 1) by lia. lia.
Qed.

Lemma packed_inj : forall n r c r' c', r <= c -> c < n -> r' <= c' -> c' < n ->
  above n r + (c - r) = above n r' + (c' - r') -> r = r' /\ c = c'.
Proof.
  intros n r c r' c' H1 H2 H3 H4 E.
  assert (r = r'); [|subst; lia].
  destruct (N.lt_trichotomy r r') as [L|[L|L]]; auto; exfalso.
  - pose proof (above_step n r). pose proof (above_mono n (r + 1) r'). lia.
  - pose proof (above_step n r'). pose proof (above_mono n (r' + 1) r). lia.
Qed.

Lemma c73_packed : forall m n, small (UpperTriangular n) ->
  bijective (n * (n + 1) / 2) (fun p => fst p <= snd p /\ snd p < n) (packed_1d_2d m n) (fun p => packed_2d_1d m n (fst p) (snd p)) /\
  (0 < n -> packed_2d_1d m n 0 0 = Ok 0) /\
  (forall row col, col < row -> packed_2d_1d m n row col = Panic) /\
  (forall p q i j, fst p <= snd p -> snd p < n -> fst q <= snd q -> snd q < n ->
     packed_2d_1d m n (fst p) (snd p) = Ok i -> packed_2d_1d m n (fst q) (snd q) = Ok j -> (i < j <-> before_by_rows p q)).
Proof.
  intros m n Hs. cbn [small] in Hs. fold (tri n). splits.
  - split.
    + intros i Hi. destruct (packed_back m n i Hs Hi) as (r & c & E & Hr & Hc & V). exists (r, c). cbn [fst snd]. splits; auto.
      rewrite packed_ok by auto. now rewrite V.
    + intros [r c] [Hr Hc]. cbn [fst snd] in *. exists (above n r + (c - r)). split; [now apply packed_ok|].
      pose proof (packed_bound n r c Hr Hc) as Hb. split; auto.
      destruct (packed_back m n _ Hs Hb) as (r' & c' & E & Hr' & Hc' & V). rewrite E.
      destruct (packed_inj n r' c' r c) as [-> ->]; auto.
  - intros Hn. rewrite packed_ok by (auto; lia). unfold above. f_equal. replace (n - 0) with n by lia. lia.
  - intros row col H. unfold packed_2d_1d. replace (row <=? col) with false by lia. reflexivity.
  - intros [r c] [r' c'] i j H1 H2 H3 H4 E E'. cbn [fst snd] in *. rewrite packed_ok in E, E' by auto.
    injection E as <-. injection E' as <-. unfold before_by_rows. cbn [fst snd]. split; intros H.
    + destruct (N.lt_trichotomy r r') as [L|[L|L]]; [auto|subst; right; lia|exfalso].
      pose proof (above_step n r'). pose proof (above_mono n (r' + 1) r). lia.
    + destruct H as [L|[-> L]]; [|lia]. pose proof (above_step n r). pose proof (above_mono n (r + 1) r'). lia.
Qed.

(** ** Constructors and [eval] *)

Lemma corrected_index : forall l, corrected_from_dimension (index_kind l) (dim l) = Ok (index_layout l).
Proof.
  intros l. destruct l as [d | d | n | n | d s | d s | n s | n s | n]; try reflexivity.
  cbn. now rewrite N.eqb_refl.
Qed.

Lemma corrected_dense : forall k d l, corrected_from_dimension k d = Ok l -> has_strides l = false /\ dim l = d /\ index_kind l = k.
Proof.
  intros k [r c] l H. destruct k; cbn [corrected_from_dimension from_dimension fst snd] in H; inv_ok; splits; try reflexivity.
  all: cbn [dim fst snd] in *; f_equal; lia.
Qed.

Lemma c73_from_dimension :
  (forall l, corrected_from_dimension (index_kind l) (dim l) = Ok (index_layout l)) /\
  (forall k d l, corrected_from_dimension k d = Ok l -> dim l = d /\ index_kind l = k) /\
  (forall k d, k <> KColumnVector -> corrected_from_dimension k d = from_dimension k d).
Proof.
  splits.
  - exact corrected_index.
  - intros k d l H. now destruct (corrected_dense k d l H) as (_ & E1 & E2).
  - intros [] d H; try reflexivity. congruence.
Qed.

Section Eval.
Context {T : Type} {SC : HScalar T}.
Notation heap := (@heap T).

Lemma zeros_with_ok : forall m (h : heap) k rows cols l,
  corrected_from_dimension k (rows, cols) = Ok l -> entry_count l * Npos ssize <= isize_max ->
  exists h' b, zeros_from_dim_with corrected_from_dimension m h k rows cols = Ok (h', b) /\ bm_layout b = l /\
    bm_rs b = Dynamic /\ bm_cs b = Dynamic /\
    fresh_zeros h h' b /\ h' = h ++ [repeat szero (N.to_nat (entry_count l))] /\
    c_region (bm_data b) = mkRegion (length h) 0 (entry_count l).
Proof.
  intros m h k rows cols l El Hn.
  assert (Hf : fits l) by (unfold fits; nia). pose proof (fits_small l Hf) as Hs.
  unfold zeros_from_dim_with. rewrite El. cbn [bind]. rewrite number_of_elements_ok by auto. cbn [bind].
  rewrite vector_container_new_ok by auto. cbn [bind].
  rewrite from_data_ok by (auto; cbn [c_region r_len]; lia). cbn [bind].
  eexists. eexists. split; [reflexivity|]. cbn [bm_layout bm_rs bm_cs bm_data c_region r_len].
  splits; auto; apply fresh_from_data; auto; now destruct (corrected_dense _ _ _ El).
Qed.

Lemma c73_zeros : forall m (h : heap) l, entry_count l * Npos ssize <= isize_max ->
  exists h' b, zeros_from_dim_with corrected_from_dimension m h (index_kind l) (fst (dim l)) (snd (dim l)) = Ok (h', b) /\
    mat_dim (@MBase T b) = dim l /\ fresh_zeros h h' b.
Proof.
  intros m h l Hn. pose proof (corrected_index l) as El. rewrite (surjective_pairing (dim l)) in El.
  destruct (zeros_with_ok m h _ _ _ _ El) as (h' & b & E & L & _ & _ & F & _).
  { now rewrite index_layout_count. }
  exists h', b. splits; auto. unfold mat_dim. cbn [mat_layout]. rewrite L. apply index_layout_dim.
Qed.

Lemma c73_eval : forall m (h : heap) x, valid h x ->
  (entry_count (mat_layout x) * Npos ssize <= isize_max ->
   exists h' b, eval_with corrected_from_dimension m h x = Ok (h', b) /\
     only_allocates h h' /\ (length h <= r_alloc (c_region (bm_data b)))%nat /\
     keeps_matrices h h' /\ base_valid h' b /\ container_is_mut (bm_data b) = true /\
     dim (bm_layout b) = mat_dim x /\ index_kind (bm_layout b) = index_kind (mat_layout x) /\
     forall p, stored (mat_layout x) p ->
       stored (bm_layout b) p /\ base_entry h' b p = entry h x p) /\
  (isize_max < entry_count (mat_layout x) * Npos ssize -> panics (eval_with corrected_from_dimension m h x)).
Proof.
  intros m h x Hv. split; intros Hn.
  - set (l := mat_layout x) in *.
    pose proof (corrected_index l) as El. rewrite (surjective_pairing (dim l)) in El.
    destruct (zeros_with_ok m h (index_kind l) (fst (dim l)) (snd (dim l)) (index_layout l) El) as
      (h1 & b & E1 & Lb & Rb & Cb & (Oa & Vb & Al & Mb & Z) & Eh1 & Reg).
    { now rewrite index_layout_count. }
    unfold eval_with. fold l. rewrite E1. cbn [bind].
    rewrite number_of_elements_ok by (apply (valid_small x h); auto). cbn [bind].
    rewrite index_layout_count in *.
    set (I := fun (k : N) (hk : heap) => extends h1 hk /\ length hk = length h1 /\
      (forall a i, (a < length h)%nat -> hget hk a i = hget h a i) /\
      (forall p, stored l p -> number l p < k -> base_entry hk b p = entry h x p)).
    assert (Hold1 : forall a i, (a < length h)%nat -> hget h1 a i = hget h a i)
      by now apply only_allocates_hget.
    destruct (for_range_inv _ I (fun index h0 =>
        v <- get1d_unchecked m h0 x index;;
        p <- base_get1d_unchecked_mut m b index;; place_write h0 p v) (entry_count l) h1)
      as (h2 & E2 & (X2 & L2 & O2 & F2)).
    + intros k hk Hk (Xk & Lk & Ok_ & Fk).
      assert (Xh : extends h hk) by (apply extends_trans with h1; auto using only_allocates_extends).
      assert (Vx : valid hk x) by now apply valid_extends with h.
      assert (Vbk : base_valid hk b) by now apply base_valid_extends with h1.
      destruct (get1d_unchecked_ok m hk x k Vx Hk) as (v & -> & Ev). cbn [bind].
      fold l in Ev. destruct (pos_spec l k Hk) as [Hst _]. pose proof (number_pos l k Hk) as Hnum.
      assert (Hst' : stored (bm_layout b) (pos l k)) by (rewrite Lb; now apply index_layout_stored).
      rewrite (base_get1d_unchecked_mut_ok m hk) by (auto; now rewrite Lb, index_layout_count).
      rewrite Lb, index_layout_pos. cbn [bind].
      destruct (place_write_entry hk b (pos l k) v Vbk Hst') as (hk' & Ew & Eh & _).
      exists hk'. split; [exact Ew|]. subst hk'.
      assert (Hd : distinct_cells (bm_layout b)) by (rewrite Lb; apply distinct_dense, index_layout_dense).
      unfold I. splits.
      * apply extends_trans with hk; auto using extends_hset.
      * rewrite <- Lk. apply hset_changes_only.
      * intros a i Ha. rewrite hget_hset_other, Ok_; auto. intros Ea. injection Ea as Ea _.
        rewrite Reg in Ea. cbn [r_alloc] in Ea. lia.
      * intros p Hp Hlt. assert (Hp' : stored (bm_layout b) p) by (rewrite Lb; now apply index_layout_stored).
        destruct (N.eq_dec (number l p) k) as [Ek | Ek].
        -- assert (p = pos l k) as ->. { subst k. destruct p as [r c]. symmetry. now apply pos_number. }
           rewrite distinct_entry_same by auto. rewrite <- Ev.
           apply (old_entries_keep h hk); auto.
        -- rewrite distinct_entry_other; auto; [apply Fk; auto; lia|]. intros <-. congruence.
    + unfold I. splits; auto using extends_refl. intros p Hp Hlt. lia.
    + unfold I in *. rewrite E2. cbn [bind]. exists h2, b.
      assert (Oa2 : only_allocates h h2).
      { apply same_hget_only_allocates; auto. apply extends_trans with h1; auto using only_allocates_extends. }
      splits; auto.
      * now apply only_allocates_keeps.
      * now apply base_valid_extends with h1.
      * rewrite Lb. apply index_layout_dim.
      * rewrite Lb. apply index_layout_kind.
      * intros p Hp. split; [rewrite Lb; now apply index_layout_stored|]. apply F2; auto. destruct p. now apply number_bound.
  - unfold panics, eval_with, zeros_from_dim_with. rewrite <- surjective_pairing.
    rewrite corrected_index. cbn [bind].
    rewrite number_of_elements_ok.
    2:{ apply (same_kind_small (mat_layout x)); rewrite ?index_layout_dim, ?index_layout_kind; auto.
        apply (valid_small x h); auto. }
    cbn [bind]. rewrite index_layout_count. unfold vector_container_new.
    now replace (entry_count (mat_layout x) * N.pos ssize <=? isize_max) with false by lia.
Qed.

(** ** The present functions *)

Lemma c73_same :
  (forall m n i, upper_triangular_1d_2d_with (fun j => Ok (ut_p j)) m n i = upper_triangular_1d_2d m n i) /\
  (forall m (h : heap) k rows cols, zeros_from_dim_with from_dimension m h k rows cols = zeros_from_dim m h k rows cols) /\
  (forall m (h : heap) (x : matrix T), eval_with from_dimension m h x = eval m h x).
Proof. splits; reflexivity. Qed.
End Eval.

(** ** Sizes *)

Lemma c73_sizes : forall m rs cs c l b,
  sized_from_data m rs cs c l = Ok b <->
  from_data m rs cs c l = Ok b /\ (rs <> Dynamic -> fst (dim l) = size_N rs) /\ (cs <> Dynamic -> snd (dim l) = size_N cs).
Proof.
  intros m rs cs c l b. unfold sized_from_data.
  assert (A : forall s n, agrees s n = true <-> (s <> Dynamic -> n = size_N s)).
  { intros [] n; cbn [agrees]; rewrite ?N.eqb_eq; split; auto; try (intros H; apply H; discriminate). intros _ H. now elim H. }
  rewrite <- !A. destruct (agrees rs (fst (dim l))), (agrees cs (snd (dim l))); cbn [andb assert_ bind]; split; intros H; try discriminate; try tauto.
  all: destruct H as (_ & ? & ?); discriminate.
Qed.

Lemma c73_length : forall (T : Type) m c l b rs cs,
  sized_from_data m rs cs c l = Ok b -> small l ->
  corrected_length m b = Ok (entry_count l) /\
  forall n, mat_length (@MBase T b) = Some n -> n = fst (dim l) * snd (dim l).
Proof.
  intros T m c l b rs cs H Hs. apply c73_sizes in H. destruct H as (H & R & C).
  unfold from_data in H. inv_ok. split; [now apply number_of_elements_ok|].
  intros n. cbn [mat_length mat_size bm_rs bm_cs mat_layout bm_layout].
  destruct rs, cs; try discriminate; intros En; injection En as <-.
  all: try rewrite (C ltac:(discriminate)); try rewrite (R ltac:(discriminate)); cbn [size_N]; lia.
Qed.
