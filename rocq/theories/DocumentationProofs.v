(** * DocumentationProofs: the code blocks of the documentation, for all sizes. *)

From Coq Require Import ZifyBool ZifyNat ZifyN.
From Verif Require Import Machine MachineFacts Layouts LayoutFacts Memory MemoryFacts Matrix MatMul Spec MatrixSpec ExprSpec ProductSpec.
From Verif Require Import AccessFacts AccessProofs BlockExact BlockProofs ConstructorProofs ExprProofs ProductProofs AlgebraProofs Documentation.
Local Open Scope N_scope.

Section DocumentationProofs.
Context {T : Type} {SC : HScalar T} {G : Type}.
Notation heap := (@heap T).
Variable eqb : T -> T -> bool.
Variable rs : G -> T * G.

Lemma samples_drawn : forall n g xs g', samples rs n g = (xs, g') ->
  length xs = n /\ g' = later rs n g /\ forall i, (i < n)%nat -> nth_error xs i = Some (drawn rs i g).
Proof.
  induction n as [|n IH]; cbn [samples later]; intros g xs g' E.
  - injection E as <- <-. splits; auto. intros i Hi. lia.
  - destruct (rs g) as [x g1] eqn:Eg. destruct (samples rs n g1) as [ys g2] eqn:Es.
    injection E as <- <-. destruct (IH _ _ _ Es) as (L & -> & N). cbn [length snd]. splits; auto.
    intros [|i] Hi; cbn [nth_error drawn]; rewrite Eg; cbn [fst snd]; auto. apply N. lia.
Qed.

Lemma in_range_below : forall d p, in_range d p -> fst p * snd d + snd p < fst d * snd d.
Proof. intros [r c] [i j] [H1 H2]. cbn [fst snd] in *. nia. Qed.

Lemma full_stored : forall l p, upper_triangular_like l = false -> stored l p <-> in_range (dim l) p.
Proof. intros l p H. unfold stored. rewrite H. intuition congruence. Qed.

Lemma rand_rows : forall m h g d, fst d * snd d * Npos ssize <= isize_max ->
  exists h' b, rand_mat_macro m h rs g ByRow d = Ok (h', b, later rs (N.to_nat (fst d * snd d)) g) /\
    bm_layout b = RowMajor d /\ base_valid h' b /\
    (forall p, in_range d p -> base_entry h' b p = Some (drawn_entry rs g d p)) /\ only_allocates h h'.
Proof.
  intros m h g d Hn. destruct (rand_mat_ok G rs m h g ByRow d Hn) as (h' & b & xs & g' & Es & E & Lb & V & (_ & L) & O).
  destruct (samples_drawn _ _ _ _ Es) as (_ & -> & D). exists h', b. cbn [dense_layout] in Lb. splits; auto.
  intros p Hp. rewrite <- L by (rewrite Lb; now apply full_stored). rewrite Lb.
  change (number (RowMajor d) p) with (fst p * snd d + snd p). apply D. pose proof (in_range_below d p Hp). lia.
Qed.

Lemma rand_vec : forall m h g o n, n * Npos ssize <= isize_max ->
  exists h' b, rand_vector_macro m h rs g o n = Ok (h', b, later rs (N.to_nat n) g) /\
    bm_layout b = (match o with ByRow => RowVector n | ByColumn => ColumnVector n end) /\ base_valid h' b /\
    entries_are h' b (fun i j => drawn rs (N.to_nat (i + j)) g) /\ only_allocates h h'.
Proof.
  intros m h g o n Hn. destruct (rand_vector_ok G rs m h g o n Hn) as (h' & b & xs & g' & Es & E & Lb & V & (_ & L) & O).
  destruct (samples_drawn _ _ _ _ Es) as (_ & -> & D). exists h', b. splits; auto.
  intros i j Hp. rewrite <- L by (rewrite Lb in *; destruct o; now apply full_stored).
  destruct Hp as [H1 H2]. cbn [fst snd] in *. rewrite Lb in *. destruct o; cbn [dim fst snd] in *.
  - rewrite <- D by lia. f_equal. change (number (RowVector n) (i, j)) with (i * n + j).
    replace i with 0 by lia. lia.
  - rewrite <- D by lia. f_equal. change (number (ColumnVector n) (i, j)) with (j * n + i).
    replace j with 0 by lia. lia.
Qed.

(** Reading an entry of a dense row-major matrix. *)
Lemma row_get : forall m h b d r c v, base_valid h b -> bm_layout b = RowMajor d -> in_range d (r, c) ->
  base_entry h b (r, c) = Some v -> get m h (MBase b) r c = Ok v.
Proof.
  intros m h b d r c v V L P E. destruct (c09_get m h (MBase b) r c V) as [R _].
  cbn [mat_layout] in R. rewrite L in R. destruct (R (proj2 (full_stored (RowMajor d) _ eq_refl) P)) as (w & -> & X).
  unfold entry in X. cbn [value] in X. congruence.
Qed.

Lemma row_get_out : forall m h b d r c, base_valid h b -> bm_layout b = RowMajor d -> ~ in_range d (r, c) ->
  get m h (MBase b) r c = Panic.
Proof.
  intros m h b d r c V L P. apply (c09_get m h (MBase b) r c V). cbn [mat_layout]. rewrite L. now rewrite full_stored.
Qed.

Lemma assert_eq_ok : forall x y, runs_iff (assert_eq eqb x y) (eqb x y = true).
Proof.
  intros x y. unfold assert_eq. destruct (eqb x y); split; intros H; cbn [assert_]; try congruence; eauto.
Qed.

(** ** Access *)
Lemma zeros_rows : forall m h d, fst d * snd d * Npos ssize <= isize_max ->
  exists h' b, mat_macro m h ByRow d = Ok (h', b) /\ bm_layout b = RowMajor d /\ fresh_zeros h h' b /\
    r_len (c_region (bm_data b)) = fst d * snd d.
Proof.
  intros m h [r c] Hn. destruct (zeros_ok m h KRowMajor r c (RowMajor (r, c)) eq_refl Hn)
    as (h' & b & E & L & _ & _ & R & Z & _). exists h', b. splits; auto.
Qed.

Lemma in_range_dec : forall d p, in_range d p \/ ~ in_range d p.
Proof. intros d p. unfold in_range. lia. Qed.

Lemma row_set : forall m (h : heap) b d r c v, base_valid h b -> dim (bm_layout b) = d ->
  upper_triangular_like (bm_layout b) = false -> container_is_mut (bm_data b) = true ->
  (in_range d (r, c) -> exists h', set m h (MBase b) r c v = Ok h' /\
     one_cell_written h h' (fst (entry_cell b (r, c))) (snd (entry_cell b (r, c))) v) /\
  (~ in_range d (r, c) -> set m h (MBase b) r c v = Panic).
Proof.
  intros m h b d r c v V L U M.
  assert (W : writes_to (@MBase T b) = Some b) by (cbn [writes_to]; now rewrite M).
  destruct (c09_get_mut m h (MBase b) b r c V W) as [R R']. cbn [mat_layout] in R, R'.
  rewrite full_stored, L in R, R' by auto. unfold set. split; intros P.
  - rewrite (R P). cbn [bind]. destruct (place_write_entry h b (r, c) v V) as (h' & E & _ & O).
    { apply full_stored; auto. now rewrite L. }
    exists h'. split; auto.
  - apply R' in P. now rewrite P.
Qed.

Lemma written_valid : forall (h h' : heap) b a i v, base_valid h b -> one_cell_written h h' a i v -> base_valid h' b.
Proof.
  intros h h' b a i v V (C & _). apply base_valid_extends with h; auto. apply C.
Qed.

Lemma c65_write : forall m h d p v, fst d * snd d * Npos ssize <= isize_max ->
  (in_range d p -> exists h' b, doc_write m h d p v = Ok (h', b) /\ bm_layout b = RowMajor d /\
     base_valid h' b /\ base_entry h' b p = Some v) /\
  (~ in_range d p -> doc_write m h d p v = Panic).
Proof.
  intros m h d [r c] v Hn. destruct (zeros_rows m h d Hn) as (h1 & b & E & L & (O & V & A & M & Z) & R).
  destruct (row_set m h1 b d r c v V) as [S1 S2]; auto; try (now rewrite L).
  unfold doc_write. rewrite E. cbn [bind fst snd]. split; intros P.
  - destruct (S1 P) as (h2 & -> & W). exists h2, b. splits; eauto using written_valid. apply W.
  - now rewrite (S2 P).
Qed.

Lemma c65_access : forall m h d p v, fst d * snd d * Npos ssize <= isize_max ->
  runs_iff (doc_access eqb m h d p v) (in_range d p /\ eqb v v = true) /\
  runs_iff (doc_write m h d p v) (in_range d p) /\ runs_iff (doc_read m h d p) (in_range d p).
Proof.
  intros m h d p v Hn. destruct (c65_write m h d p v Hn) as [W1 W2]. split; [|split].
  - unfold doc_access. destruct (in_range_dec d p) as [P | P].
    + destruct (W1 P) as (h' & b & -> & L & V & E). cbn [bind]. destruct p as [r c]. cbn [fst snd].
      rewrite (row_get m h' b d r c v) by auto. cbn [bind]. destruct (assert_eq_ok v v) as [A B].
      split; intros H; [apply A|apply B]; tauto.
    + rewrite (W2 P). split; [tauto|reflexivity].
  - split; auto. intros P. destruct (W1 P) as (h' & b & -> & _). eauto.
  - destruct p as [r c]. unfold doc_read. destruct (zeros_rows m h d Hn) as (h1 & b & -> & L & (O & V & A & M & Z) & R).
    cbn [bind fst snd]. split; intros P.
    + rewrite (row_get m h1 b d r c szero); eauto. apply Z. rewrite L. now apply full_stored.
    + now apply row_get_out with d.
Qed.

(** ** Unchecked access, also outside of the dimensions *)
Lemma c65_unchecked : forall m h d p v, fst d * snd d * Npos ssize <= isize_max ->
  fst p * snd d + snd p < usize_mod ->
  (fst p * snd d + snd p < fst d * snd d -> runs_iff (doc_unchecked eqb m h d p v) (eqb v v = true)) /\
  (fst d * snd d <= fst p * snd d + snd p -> doc_unchecked eqb m h d p v = UB).
Proof.
  intros m h d [r c] v Hn Ho. cbn [fst snd] in Ho |- *.
  destruct (zeros_rows m h d Hn) as (h1 & b & E & L & (O & V & A & M & Z) & R).
  unfold doc_unchecked. rewrite E. cbn [bind fst snd get_unchecked_mut get_unchecked]. rewrite M.
  unfold base_get_unchecked_mut, base_get_unchecked. rewrite L. cbn [convert_2d_raw].
  unfold row_major_2d_1d. rewrite umul_ok by lia. cbn [bind]. rewrite uadd_ok by lia. cbn [bind].
  unfold container_get_unchecked_mut, region_place. rewrite R. split; intros H.
  - apply N.ltb_lt in H as Hb. rewrite Hb. cbn [bind]. unfold place_write. cbn [pl_alloc pl_index].
    destruct V as ([Vr _] & _). destruct (region_read_ok h1 _ (r * snd d + c) Vr) as (w & _ & Ew); [lia|].
    rewrite Ew. cbn [bind]. unfold container_get_unchecked, region_read. rewrite R, Hb.
    rewrite (hget_hset_same _ _ _ _ _ Ew). cbn [bind]. apply assert_eq_ok.
  - apply N.ltb_ge in H. now rewrite H.
Qed.

(** ** Sums *)
Lemma kept_entry : forall (h h' : heap) b p, only_allocates h h' -> base_valid h b ->
  base_valid h' b /\ base_entry h' b p = base_entry h b p.
Proof. intros h h' b p O V. destruct (only_allocates_keeps h h' O (MBase b) V) as [X Y]. split; auto. apply Y. Qed.

Lemma kind_rows : forall l, index_kind l = KRowMajor ->
  column_vector_like l = false /\ upper_triangular_like l = false /\ entry_count l = fst (dim l) * snd (dim l).
Proof. intros l H. destruct l; try discriminate; auto. Qed.

Lemma c65_sum : forall m h g d1 d2 s p, fst d1 * snd d1 * Npos ssize <= isize_max ->
  fst d2 * snd d2 * Npos ssize <= isize_max ->
  let e := sadd (smul s (drawn_entry rs g d1 p))
                (drawn_entry rs (later rs (N.to_nat (fst d1 * snd d1)) g) d2 p) in
  runs_iff (doc_sum eqb rs m h g d1 d2 s p) (d1 = d2 /\ in_range d1 p /\ eqb e e = true).
Proof.
  intros m h g d1 d2 s p H1 H2 e.
  destruct (rand_rows m h g d1 H1) as (h1 & a & E1 & L1 & V1 & X1 & O1).
  set (g1 := later rs (N.to_nat (fst d1 * snd d1)) g) in *.
  destruct (rand_rows m h1 g1 d2 H2) as (h2 & b & E2 & L2 & V2 & X2 & O2).
  unfold doc_sum. rewrite E1. cbn [bind]. rewrite E2. cbn [bind].
  destruct (kept_entry h1 h2 a p O2 V1) as [V1' Ea].
  destruct (c28 ByValue ByReference (scalar_times s ByReference (MBase a)) (MBase b)) as [P _].
  assert (D : (mat_dim (scalar_times s ByReference (MBase a)) = d1) /\ (mat_dim (@MBase T b) = d2)).
  { unfold mat_dim. cbn [mat_layout scalar_times]. rewrite L2. split; auto. cbn. now rewrite L1. }
  destruct D as [D1 D2]. rewrite D1, D2 in P.
  assert (Q : d1 = d2 \/ d1 <> d2).
  { destruct d1 as [x y], d2 as [x' y']. destruct (N.eq_dec x x'), (N.eq_dec y y'); [left; congruence|right..]; congruence. }
  destruct Q as [<- | Q].
  2:{ apply P in Q as Q'. rewrite Q'. split; [tauto|reflexivity]. }
  destruct (c25 m h2 d1 KRowMajor (Plus ByValue (ScalarTimes s ByReference (Leaf a)) ByReference (Leaf b)))
    as (x & Ex & Vx & Dx & Kx & Gx).
  { unfold all_leaves. cbn [leaves app]. constructor; [|constructor; [|constructor]]; (split; [auto|]);
    rewrite ?L1, ?L2; split; reflexivity. }
  cbn [build bind] in Ex. rewrite Ex. cbn [bind].
  destruct (kind_rows _ Kx) as (Kx1 & Kx2 & Kx3). unfold mat_dim in Dx.
  destruct (c26 m h2 x Vx) as [Ev _].
  { rewrite Kx1. discriminate. }
  destruct Ev as (h3 & r & Er & O3 & _ & _ & V3 & _ & D3 & K3 & X3).
  { rewrite Kx3, Dx. exact H1. }
  rewrite Er. cbn [bind]. unfold mat_dim in D3. rewrite Dx in D3. destruct p as [i j]. cbn [fst snd].
  destruct (c09_get m h3 (MBase r) i j V3) as [G1 G2]. cbn [mat_layout] in G1, G2.
  assert (U : upper_triangular_like (bm_layout r) = false).
  { rewrite Kx in K3. now apply kind_rows. }
  rewrite full_stored, D3 in G1, G2 by auto.
  destruct (in_range_dec d1 (i, j)) as [R | R].
  2:{ apply G2 in R as R'. rewrite R'. split; [tauto|reflexivity]. }
  destruct (G1 R) as (w & -> & Ew). cbn [bind].
  destruct (kept_entry h2 h3 a (i, j) O3 V1') as [V1s Eas]. destruct (kept_entry h2 h3 b (i, j) O3 V2) as [V2s Ebs].
  rewrite (row_get m h3 a d1 i j (drawn_entry rs g d1 (i, j))); auto; [|rewrite Eas, Ea; auto].
  rewrite (row_get m h3 b d1 i j (drawn_entry rs g1 d1 (i, j))); auto; [|rewrite Ebs; auto].
  cbn [bind]. fold e.
  assert (We : w = e).
  { assert (S : stored (mat_layout x) (i, j)) by (apply full_stored; auto; now rewrite Dx).
    destruct (X3 _ S) as [_ X4]. unfold entry in Ew. cbn [value] in Ew. rewrite X4 in Ew.
    destruct (Gx i j) as [Gy _]. destruct (Gy S) as (u & Eu & Du).
    destruct (c09_get m h2 x i j Vx) as [Gz _]. destruct (Gz S) as (u' & Eu' & Du').
    rewrite Eu in Eu'. injection Eu' as <-. rewrite Ew in Du'. injection Du' as ->.
    cbn [denote] in Du. rewrite Ea, X1, X2 in Du by auto. injection Du as Du. now rewrite <- Du. }
  subst w. destruct (assert_eq_ok e e) as [A B]. split; intros H; [apply A|apply B]; tauto.
Qed.

(** ** Products *)
Lemma c65_products : forall kern m h g d n1 n2, fst d * snd d * Npos ssize <= isize_max ->
  fst d * Npos ssize <= isize_max -> n1 * Npos ssize <= isize_max -> n2 * Npos ssize <= isize_max ->
  let g1 := later rs (N.to_nat (fst d * snd d)) g in
  let g2 := later rs (N.to_nat n1) g1 in
  (n1 = snd d /\ n2 = fst d -> exists h' r1 r2, doc_products rs kern m h g d n1 n2 = Ok (h', r1, r2) /\
     dim (bm_layout r1) = (fst d, 1) /\ dim (bm_layout r2) = (1, snd d) /\
     base_valid h' r1 /\ base_valid h' r2 /\
     (computes kern -> exact_sums (T := T) ->
      entries_are h' r1 (fun i _ => sum_below (N.to_nat (snd d)) (fun l =>
        smul (drawn_entry rs g d (i, l)) (drawn rs (N.to_nat l) g1))) /\
      entries_are h' r2 (fun _ j => sum_below (N.to_nat (fst d)) (fun l =>
        smul (drawn rs (N.to_nat l) g2) (drawn_entry rs g d (l, j)))))) /\
  (~ (n1 = snd d /\ n2 = fst d) -> doc_products rs kern m h g d n1 n2 = Panic).
Proof.
  intros kern m h g d n1 n2 H Hr H1 H2 g1 g2.
  destruct (rand_rows m h g d H) as (h1 & a & E1 & L1 & V1 & X1 & O1). fold g1 in E1.
  destruct (rand_vec m h1 g1 ByColumn n1 H1) as (h2 & c & E2 & L2 & V2 & X2 & O2). fold g2 in E2.
  destruct (rand_vec m h2 g2 ByRow n2 H2) as (h3 & r & E3 & L3 & V3 & X3 & O3).
  unfold doc_products. rewrite E1. cbn [bind]. rewrite E2. cbn [bind]. rewrite E3. cbn [bind].
  set (A := fun i j => drawn_entry rs g d (i, j)).
  assert (Va : base_valid h3 a /\ entries_are h3 a A).
  { assert (O : only_allocates h1 h3) by (eapply only_allocates_trans; eauto).
    split; [apply (kept_entry h1 h3 a (0, 0) O V1)|]. intros i j P. destruct (kept_entry h1 h3 a (i, j) O V1) as [_ ->].
    rewrite L1 in P. now apply X1. }
  assert (Vc : base_valid h3 c /\ entries_are h3 c (fun i j => drawn rs (N.to_nat (i + j)) g1)).
  { split; [apply (kept_entry h2 h3 c (0, 0) O3 V2)|]. intros i j P.
    destruct (kept_entry h2 h3 c (i, j) O3 V2) as [_ ->]. now apply X2. }
  destruct Va as [Va Xa]. destruct Vc as [Vc Xc].
  assert (Ta : true_strides (bm_layout a)) by (rewrite L1; now apply operand_true).
  assert (Tc : true_strides (bm_layout c)) by (rewrite L2; now apply operand_true).
  assert (Tr : true_strides (bm_layout r)) by (rewrite L3; now apply operand_true).
  destruct (c35 MatrixColumn kern m h3 a c A (fun i j => drawn rs (N.to_nat (i + j)) g1) Va Vc Ta Tc) as (F1 & F2 & _); auto.
  { rewrite L2. reflexivity. }
  rewrite L1, L2 in F1, F2. cbn [dim fst snd] in F1, F2.
  destruct (N.eq_dec n1 (snd d)) as [En | En].
  2:{ split; [tauto|]. intros _. rewrite F2; auto. }
  subst n1. destruct (F1 eq_refl) as (h4 & r1 & sh & Ed & _ & _ & _ & O4 & V4 & _ & _ & D4 & X4).
  { lia. }
  rewrite Ed. cbn [bind].
  assert (Va4 : base_valid h4 a /\ entries_are h4 a A).
  { split; [apply (kept_entry h3 h4 a (0, 0) O4 Va)|]. intros i j P.
    destruct (kept_entry h3 h4 a (i, j) O4 Va) as [_ ->]. now apply Xa. }
  assert (Vr4 : base_valid h4 r /\ entries_are h4 r (fun i j => drawn rs (N.to_nat (i + j)) g2)).
  { split; [apply (kept_entry h3 h4 r (0, 0) O4 V3)|]. intros i j P.
    destruct (kept_entry h3 h4 r (i, j) O4 V3) as [_ ->]. now apply X3. }
  destruct Va4 as [Va4 Xa4]. destruct Vr4 as [Vr4 Xr4].
  destruct (c35 RowMatrix kern m h4 r a (fun i j => drawn rs (N.to_nat (i + j)) g2) A Vr4 Va4 Tr Ta) as (F3 & F4 & _); auto.
  { rewrite L3. reflexivity. }
  rewrite L1, L3 in F3, F4. cbn [dim fst snd] in F3, F4.
  destruct (N.eq_dec n2 (fst d)) as [En | En].
  2:{ split; [tauto|]. intros _. rewrite F4; auto. }
  subst n2. split; [intros _|tauto].
  destruct (F3 eq_refl) as (h5 & r2 & sh' & Ed' & _ & _ & _ & O5 & V5 & _ & _ & D5 & X5); [lia|].
  rewrite Ed'. cbn [bind]. exists h5, r1, r2. splits; auto.
  { apply (kept_entry h4 h5 r1 (0, 0) O5 V4). }
  intros K S. split; intros i j P.
  - destruct (kept_entry h4 h5 r1 (i, j) O5 V4) as [_ ->]. rewrite X4 by auto. f_equal.
    rewrite (computes_entry kern K sh _ sone A _ szero (fun _ _ => szero)). unfold product_entry. rewrite S.
    apply sum_below_eq. intros l Hl. unfold A. do 3 f_equal. rewrite D4 in P. destruct P as [_ P]. cbn [fst snd] in P. lia.
  - rewrite X5 by auto. f_equal.
    rewrite (computes_entry kern K sh' _ sone _ A szero (fun _ _ => szero)). unfold product_entry. rewrite S.
    apply sum_below_eq. intros l Hl. unfold A. do 3 f_equal. rewrite D5 in P. destruct P as [P _]. cbn [fst snd] in P. lia.
Qed.

(** ** Blocks *)
Lemma c65_block : forall m h g D tl d p, fst D * snd D * Npos ssize <= isize_max -> nonempty d ->
  fst tl + fst d < usize_mod -> snd tl + snd d < usize_mod ->
  let e := drawn_entry rs g D (shift tl p) in
  runs_iff (doc_block eqb rs m h g D tl d p) (inside D tl d /\ in_range d p /\ eqb e e = true).
Proof.
  intros m h g D tl d p Hn Hd Ho1 Ho2 e.
  destruct (rand_rows m h g D Hn) as (h1 & a & E1 & L1 & V1 & X1 & O1).
  unfold doc_block. rewrite E1. cbn [bind].
  assert (De : dense_matrix (bm_layout a) = true) by now rewrite L1.
  assert (Q : inside D tl d \/ ~ inside D tl d) by (unfold inside; lia).
  destruct Q as [Q | Q].
  - destruct (c17 m h1 a tl d V1 De Hd) as (b & Eb & Vb & Db & Rb & _ & Gb & _).
    { now rewrite L1. }
    rewrite Eb. cbn [bind]. destruct p as [i j]. cbn [fst snd].
    destruct (in_range_dec d (i, j)) as [R | R].
    + rewrite (Gb i j R).
      assert (R' : in_range D (fst tl + i, snd tl + j)).
      { destruct Q, R. split; cbn [fst snd] in *; lia. }
      rewrite (row_get m h1 a D _ _ e V1 L1 R' (X1 _ R')). cbn [bind].
      destruct (assert_eq_ok e e) as [A B]. split; intros H; [apply A|apply B]; tauto.
    + destruct (c09_get m h1 (MBase b) i j Vb) as [_ G2]. cbn [mat_layout] in G2.
      assert (U : upper_triangular_like (bm_layout b) = false).
      { rewrite L1 in Rb. destruct (bm_layout b); cbn in Rb |- *; congruence. }
      rewrite full_stored, Db in G2 by auto.
      apply G2 in R as R'. rewrite R'. split; [tauto|reflexivity].
  - assert (B : block m false a tl d = Panic).
    { destruct m.
      - apply (c20_checked_full h1 false a tl d V1 De); auto. rewrite L1. cbn [dim]. tauto.
      - apply (c20_release h1 false a tl d V1 De Hd Ho1 Ho2). now rewrite L1. }
    rewrite B. split; [tauto|reflexivity].
Qed.

(** ** Four blocks *)
Lemma split_set : forall m (h : heap) b D s k q v, base_valid h b -> bm_layout b = RowMajor D -> interior D s ->
  (in_range (quarter_dim D s k) q -> exists h',
     set m h (MBase (pick (quarters b s) k)) (fst q) (snd q) v = Ok h' /\ base_valid h' b /\
     base_entry h' b (shift (quarter_origin s k) q) = Some v /\
     forall p, in_range D p -> p <> shift (quarter_origin s k) q -> base_entry h' b p = base_entry h b p) /\
  (~ in_range (quarter_dim D s k) q -> set m h (MBase (pick (quarters b s) k)) (fst q) (snd q) v = Panic).
Proof.
  intros m h b D s k [i j] v V L I. destruct (quarter_window m h b D s k V L I) as (_ & (Wd & Wk & Wc) & Vk & Mk & Ik).
  cbn [fst snd]. destruct (row_set m h (pick (quarters b s) k) (quarter_dim D s k) i j v Vk Wd) as [S1 S2]; auto.
  { rewrite L in Wk. now apply kind_rows. }
  split; auto. intros P. destruct (S1 P) as (h' & E & O). rewrite (Wc _ P) in O. exists h'. splits; auto.
  - eapply written_valid; eauto.
  - apply O.
  - intros p Hp N. destruct O as ((_ & _ & O) & _). unfold base_entry. apply O. intros X.
    rewrite <- !surjective_pairing in X. apply N.
    assert (De : dense_matrix (bm_layout b) = true) by now rewrite L.
    apply entry_cell_inj in X; auto.
    + apply distinct_dense. now rewrite L.
    + apply dense_stored; auto. now rewrite L.
    + apply dense_stored; auto. now apply window_in_range with (quarter_dim D s k).
Qed.

Lemma c65_split : forall m h g D s p1 p2 p3 p4 v1 v2 v3 v4, fst D * snd D * Npos ssize <= isize_max -> interior D s ->
  runs_iff (doc_split eqb rs m h g D s p1 p2 p3 p4 v1 v2 v3 v4)
    ((in_range (quarter_dim D s Q0) p1 /\ in_range (quarter_dim D s Q1) p2 /\
      in_range (quarter_dim D s Q2) p3 /\ in_range (quarter_dim D s Q3) p4) /\
     eqb v1 v1 = true /\ eqb v2 v2 = true /\ eqb v3 v3 = true /\ eqb v4 v4 = true).
Proof.
  intros m h g D s p1 p2 p3 p4 v1 v2 v3 v4 Hn I.
  destruct (rand_rows m h g D Hn) as (h0 & a & E1 & L & V & _ & _).
  unfold doc_split. rewrite E1. cbn [bind].
  destruct (split_ok m h0 a D s V L I) as [E _]. rewrite E. cbn [bind].
  pose proof (fun h k q v V => split_set m h a D s k q v V L I) as S.
  destruct (quarters a s) as [[[m1 m2] m3] m4]. clear E.
  assert (N : forall k q k' q', in_range (quarter_dim D s k) q -> in_range (quarter_dim D s k') q' -> k <> k' ->
    shift (quarter_origin s k) q <> shift (quarter_origin s k') q').
  { intros k q k' q' P P' X Y. apply X. now apply (quarter_unique D s k q k' q'). }
  assert (W : forall k q, in_range (quarter_dim D s k) q -> in_range D (shift (quarter_origin s k) q)).
  { intros k q P. destruct (quarter_inside D s k I) as [_ [X Y]]. destruct P. split; cbn [shift fst snd] in *; lia. }
  destruct (S h0 Q0 p1 v1 V) as [A1 B1]. cbn [pick] in A1, B1.
  destruct (in_range_dec (quarter_dim D s Q0) p1) as [R1 | R1].
  2:{ rewrite (B1 R1). split; [tauto|reflexivity]. }
  destruct (A1 R1) as (h1 & -> & V1 & W1 & _). cbn [bind].
  destruct (S h1 Q1 p2 v2 V1) as [A2 B2]. cbn [pick] in A2, B2.
  destruct (in_range_dec (quarter_dim D s Q1) p2) as [R2 | R2].
  2:{ rewrite (B2 R2). split; [tauto|reflexivity]. }
  destruct (A2 R2) as (h2 & -> & V2 & W2 & K2). cbn [bind].
  destruct (S h2 Q2 p3 v3 V2) as [A3 B3]. cbn [pick] in A3, B3.
  destruct (in_range_dec (quarter_dim D s Q2) p3) as [R3 | R3].
  2:{ rewrite (B3 R3). split; [tauto|reflexivity]. }
  destruct (A3 R3) as (h3 & -> & V3 & W3 & K3). cbn [bind].
  destruct (S h3 Q3 p4 v4 V3) as [A4 B4]. cbn [pick] in A4, B4.
  destruct (in_range_dec (quarter_dim D s Q3) p4) as [R4 | R4].
  2:{ rewrite (B4 R4). split; [tauto|reflexivity]. }
  destruct (A4 R4) as (h4 & -> & V4 & W4 & K4). cbn [bind].
  assert (F1 : base_entry h4 a (shift (quarter_origin s Q0) p1) = Some v1).
  { rewrite K4, K3, K2 by (auto; apply N; auto; discriminate). exact W1. }
  assert (F2 : base_entry h4 a (shift (quarter_origin s Q1) p2) = Some v2).
  { rewrite K4, K3 by (auto; apply N; auto; discriminate). exact W2. }
  assert (F3 : base_entry h4 a (shift (quarter_origin s Q2) p3) = Some v3).
  { rewrite K4 by (auto; apply N; auto; discriminate). exact W3. }
  pose proof (W Q0 p1 R1) as P1. pose proof (W Q1 p2 R2) as P2. pose proof (W Q2 p3 R3) as P3. pose proof (W Q3 p4 R4) as P4.
  unfold shift in F1, F2, F3, W4, P1, P2, P3, P4. cbn [quarter_origin fst snd] in F1, F2, F3, W4, P1, P2, P3, P4.
  rewrite !N.add_0_l in F1, F2, F3, P1, P2, P3.
  rewrite (row_get m h4 a D _ _ v1), (row_get m h4 a D _ _ v2), (row_get m h4 a D _ _ v3), (row_get m h4 a D _ _ v4) by auto.
  cbn [bind]. unfold assert_eq.
  destruct (eqb v1 v1), (eqb v2 v2), (eqb v3 v3), (eqb v4 v4); cbn [assert_ bind];
    (split; intros H; [try (exfalso; intuition congruence); eauto | try reflexivity; exfalso; apply H; auto]).
Qed.
End DocumentationProofs.
