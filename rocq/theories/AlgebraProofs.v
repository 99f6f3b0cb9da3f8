(** * Proofs about nested computations (C52). *)

From Coq Require Import ZifyBool ZifyNat ZifyN.
From Verif Require Import Machine MachineFacts Layouts Memory Matrix MatMul Spec MatrixSpec ExprSpec ProductSpec AlgebraSpec.
From Verif Require Import LayoutFacts LayoutProofs MemoryFacts AccessFacts AccessProofs ConstructorProofs BlockProofs ExprProofs ProductProofs.
Local Open Scope N_scope.

Scheme term_both := Induction for term Sort Prop
  with lazy_both := Induction for lazy Sort Prop.
Combined Scheme term_lazy_ind from term_both, lazy_both.

Section Algebra.
Context {T : Type} {SC : HScalar T}.
Notation heap := (@heap T).
Implicit Types (h : heap) (b : base_matrix).

(** The layout of a product. *)
Definition dot_layout (shape : dot_shape) (d : N * N) : layout :=
  match shape with
  | MatrixMatrix => RowMajor d
  | RowMatrix => RowVector (snd d)
  | MatrixColumn => ColumnVector (fst d)
  end.

Lemma dot_result_layout : forall shape kern m h a b h' r, dot shape kern m h a b = Ok (h', r) ->
  bm_layout r = dot_layout shape (fst (dim (bm_layout a)), snd (dim (bm_layout b))).
Proof.
  intros shape kern m h a b h' r H.
  destruct shape; cbn [dot] in H; unfold dot_mat_mat, dot_row_mat, dot_mat_col, zeros_from_dim,
    row_vector_zeros_from_dim, column_vector_zeros_from_dim in H; cbn [from_dimension bind] in H;
    repeat (inv_ok; repeat match goal with x : (_ * _)%type |- _ => destruct x end);
    repeat match goal with
    | H : from_data _ _ _ _ _ = Ok _ |- _ => apply from_data_inv in H as (-> & _)
    end; reflexivity.
Qed.

Lemma not_triangular_stored : forall l p, strided_type l = true -> in_range (dim l) p -> stored l p.
Proof. intros l p H Hp. now apply strided_stored. Qed.

Lemma kind_strided : forall l, strided_type l = true <-> index_kind l <> KUpperTriangular.
Proof. intros l. destruct l; cbn; split; intros H; try reflexivity; try discriminate; congruence. Qed.

Lemma kind_column : forall l, index_kind l = KColumnVector <-> column_vector_like l = true.
Proof. intros l. destruct l; cbn; split; intros H; try reflexivity; discriminate. Qed.

Lemma in_heap_entries : forall h b, base_valid h b -> strided_type (bm_layout b) = true ->
  entries_are h b (in_heap h b).
Proof.
  intros h b Vb Ht i j Hp. unfold in_heap. destruct (base_entry_some h b (i, j) Vb) as (v & E & _).
  - now apply strided_stored.
  - now rewrite E.
Qed.

Lemma term_ok_kinds : forall h,
  (forall t, term_ok h t -> term_kind t <> KUpperTriangular) /\
  (forall z, lazy_ok h z -> lazy_kind z <> KUpperTriangular).
Proof.
  intros h. apply term_lazy_ind; cbn [term_ok lazy_ok term_kind lazy_kind].
  - intros b [_ H]. now apply kind_strided.
  - intros [] t _ u _ _; discriminate.
  - tauto.
  - tauto.
  - tauto.
  - tauto.
Qed.

Lemma base_entry_grown : forall h h' b p, only_allocates h h' -> base_valid h b -> stored (bm_layout b) p ->
  base_entry h' b p = base_entry h b p.
Proof.
  intros h h' b p Ho Vb Hp. unfold base_entry. apply (only_allocates_hget h h' Ho).
  destruct Vb as ((Hr & _) & _). now apply region_ok_alloc.
Qed.

Lemma term_ok_grown : forall h h', only_allocates h h' ->
  (forall t, term_ok h t -> term_ok h' t) /\ (forall z, lazy_ok h z -> lazy_ok h' z).
Proof.
  intros h h' Ho. pose proof (only_allocates_extends _ _ Ho) as He.
  apply term_lazy_ind; cbn [term_ok lazy_ok].
  - intros b [Vb Hb]. split; auto. now apply base_valid_extends with h.
  - intros s t IHt u IHu (H1 & H2 & H). split; [exact (IHt H1)|]. split; [exact (IHu H2)|exact H].
  - intros z IH (H1 & H). split; [exact (IH H1)|exact H].
  - intros t IH H. exact (IH H).
  - intros p z IHz q w IHw (H1 & H2 & H). split; [exact (IHz H1)|]. split; [exact (IHw H2)|exact H].
  - intros s p z IH H. exact (IH H).
Qed.

(** The entries of a computation are determined where its dimension reaches. *)
Lemma sum_below_eq : forall n (f g : N -> T), (forall l, l < N.of_nat n -> f l = g l) -> sum_below n f = sum_below n g.
Proof.
  induction n as [|n IH]; intros f g H; [reflexivity|]. cbn [sum_below]. rewrite (IH f g); [|intros; apply H; lia].
  now rewrite H by lia.
Qed.

Lemma row_and_column_eq : forall k (A B A' B' : N -> N -> T) i j,
  (forall l, l < k -> A i l = A' i l /\ B l j = B' l j) -> row_and_column k A B i j = row_and_column k A' B' i j.
Proof.
  intros k A B A' B' i j H. unfold row_and_column. apply map_ext_in. intros l Hl. apply in_seq in Hl.
  destruct (H (N.of_nat l)) as [-> ->]; [lia|reflexivity].
Qed.

Lemma bits_grown : forall kern h h', only_allocates h h' ->
  (forall t, term_ok h t -> forall i j, in_range (term_dim t) (i, j) ->
     term_bits kern (in_heap h') t i j = term_bits kern (in_heap h) t i j) /\
  (forall z, lazy_ok h z -> forall i j, in_range (lazy_dim z) (i, j) ->
     lazy_bits kern (in_heap h') z i j = lazy_bits kern (in_heap h) z i j).
Proof.
  intros kern h h' Ho. apply term_lazy_ind; cbn [term_ok lazy_ok term_dim lazy_dim term_bits lazy_bits].
  - intros b [Vb Hb] i j Hp. unfold in_heap. rewrite (base_entry_grown h h' b); auto. now apply strided_stored.
  - intros s t IHt u IHu (H1 & H2 & _ & _ & Hd & _) i j [Hi Hj]. cbn [fst snd] in *.
    f_equal. apply row_and_column_eq. intros l Hl. rewrite IHt, IHu; auto; split; cbn [fst snd]; auto. lia.
  - intros z IH (H1 & _) i j Hp. auto.
  - auto.
  - intros p z IHz q w IHw (H1 & H2 & Hd & _) i j Hp. rewrite IHz, IHw; auto. now rewrite <- Hd.
  - intros s p z IH H i j Hp. now rewrite IH.
Qed.

Lemma run_ok : forall kern m, ignores_strides kern ->
  (forall t h, term_ok h t -> exists h' r, run_term kern m h t = Ok (h', r) /\
     only_allocates h h' /\ base_valid h' r /\ dim (bm_layout r) = term_dim t /\
     index_kind (bm_layout r) = term_kind t /\ (operand_ok t -> true_strides (bm_layout r)) /\
     entries_are h' r (term_bits kern (in_heap h) t)) /\
  (forall z h, lazy_ok h z -> exists h' x, run_lazy kern m h z = Ok (h', x) /\
     only_allocates h h' /\ valid h' x /\ dim (mat_layout x) = lazy_dim z /\
     index_kind (mat_layout x) = lazy_kind z /\
     forall i j, in_range (lazy_dim z) (i, j) -> entry h' x (i, j) = Some (lazy_bits kern (in_heap h) z i j)).
Proof.
  intros kern m Hk. apply term_lazy_ind.
  - (* Var *)
    intros b h [Vb Hb]. exists h, b. cbn [run_term term_dim term_kind operand_ok]. splits; auto.
    + apply only_allocates_refl.
    + now apply in_heap_entries.
  - (* Dot *)
    intros s t IHt u IHu h (Ht & Hu' & Ot & Ou & Hd & Hs & Ha). cbn [run_term].
    destruct (IHt h Ht) as (h1 & a & -> & O1 & Va & Da & _ & Sa & Ea). cbn [bind].
    destruct (IHu h1) as (h2 & b & -> & O2 & Vb & Db & _ & Sb & Eb); [now apply (term_ok_grown h h1)|]. cbn [bind].
    pose proof (only_allocates_extends _ _ O2) as X2.
    assert (Va2 : base_valid h2 a) by now apply base_valid_extends with h1.
    assert (Tya : strided_type (bm_layout a) = true) by (apply true_strided_type; auto).
    assert (Ea2 : entries_are h2 a (term_bits kern (in_heap h) t)).
    { intros i j Hp. rewrite (base_entry_grown h1 h2 a) by (auto; now apply strided_stored). now apply Ea. }
    destruct (c35 s kern m h2 a b (term_bits kern (in_heap h) t) (term_bits kern (in_heap h1) u)) as [X _]; auto.
    { now rewrite Da, Db. }
    destruct X as (h3 & r & sh & E & S1 & S2 & S3 & (O3 & Vr & _ & _ & Dr & Er)).
    { now rewrite Da, Db. }
    { rewrite Da, Db. exact Ha. }
    exists h3, r. rewrite Da, Db in *. pose proof (dot_result_layout _ _ _ _ _ _ _ _ E) as Lr. rewrite Da, Db in Lr.
    splits; auto.
    + eapply only_allocates_trans; [exact O1|]. eapply only_allocates_trans; eauto.
    + cbn [term_kind]. rewrite Lr. destruct s; reflexivity.
    + intros _. rewrite Lr. apply operand_true. destruct s; reflexivity.
    + intros i j Hp. rewrite (Er i j Hp). f_equal. cbn [term_bits].
      rewrite (Hk sh (mkShape (fst (term_dim t)) (snd (term_dim t)) (snd (term_dim u)) (0, 0)%Z (0, 0)%Z (0, 0)%Z)) by auto.
      f_equal. apply row_and_column_eq. intros l Hl. split; auto.
      apply (bits_grown kern h h1 O1); auto. rewrite Dr in Hp. destruct Hp as [Hi Hj]. cbn [fst snd] in *.
      split; cbn [fst snd]; lia.
  - (* Evaluated *)
    intros z IH h (Hz & Ha & Hc).
    change (run_term kern m h (Evaluated z)) with ('(h1, x) <- run_lazy kern m h z ;; eval m h1 x).
    change (term_dim (Evaluated z)) with (lazy_dim z). change (term_kind (Evaluated z)) with (lazy_kind z).
    change (term_bits kern (in_heap h) (Evaluated z)) with (lazy_bits kern (in_heap h) z).
    destruct (IH h Hz) as (h1 & x & -> & O1 & Vx & Dx & Kx & Ex). cbn [bind].
    assert (Tyx : strided_type (mat_layout x) = true).
    { apply kind_strided. rewrite Kx. now apply (term_ok_kinds h). }
    destruct (eval_ok m h1 x Vx) as (h2 & b & E & O2 & _ & Vb & Lb & _ & _ & _ & _ & _ & Eb).
    + intros H. apply kind_column in H. unfold mat_dim. rewrite Dx. apply Hc. now rewrite <- Kx.
    + assert (C : entry_count (mat_layout x) = fst (dim (mat_layout x)) * snd (dim (mat_layout x))).
      { destruct (mat_layout x); cbn in Tyx |- *; try discriminate; lia. }
      rewrite C, Dx. exact Ha.
    + exists h2, b. splits; auto.
      * now apply only_allocates_trans with h1.
      * now rewrite Lb, index_layout_dim.
      * now rewrite Lb, index_layout_kind.
      * intros _. rewrite Lb. apply operand_true. destruct (mat_layout x); cbn in Tyx |- *; try discriminate; reflexivity.
      * intros i j Hp. rewrite Lb, index_layout_dim in Hp.
        rewrite Eb by now apply strided_stored. apply Ex. now rewrite <- Dx.
  - (* Use *)
    intros t IH h Ht.
    change (run_lazy kern m h (Use t)) with ('(h1, b) <- run_term kern m h t ;; Ok (h1, @MBase T b)).
    change (lazy_dim (Use t)) with (term_dim t). change (lazy_kind (Use t)) with (term_kind t).
    change (lazy_bits kern (in_heap h) (Use t)) with (term_bits kern (in_heap h) t).
    destruct (IH h Ht) as (h1 & b & -> & O1 & Vb & Db & Kb & _ & Eb). cbn [bind].
    exists h1, (MBase b). cbn [valid mat_layout]. splits; auto.
    intros i j Hp. unfold entry. cbn [value]. apply Eb. now rewrite Db.
  - (* Sum *)
    intros p z IHz q w IHw h (Hz & Hw & Hd & Hkk). cbn [run_lazy].
    destruct (IHz h Hz) as (h1 & x & -> & O1 & Vx & Dx & Kx & Ex). cbn [bind].
    destruct (IHw h1) as (h2 & y & -> & O2 & Vy & Dy & Ky & Ey); [now apply (term_ok_grown h h1)|]. cbn [bind].
    rewrite plus_eq. replace (dim_eqb _ _) with true by (symmetry; apply dim_eqb_eq; congruence). cbn [bind].
    destruct (only_allocates_keeps h1 h2 O2 x Vx) as [Vx2 Ex2].
    eexists h2, _. split; [reflexivity|]. cbn [valid mat_layout lazy_dim lazy_kind]. splits.
    + now apply only_allocates_trans with h1.
    + now apply wrap_valid.
    + now apply wrap_valid.
    + rewrite !wrap_layout. congruence.
    + rewrite !wrap_layout. congruence.
    + now rewrite wrap_layout.
    + now rewrite index_layout_dim.
    + now rewrite index_layout_kind.
    + intros i j Hp. unfold entry in *. cbn [value]. rewrite !wrap_value, Ex2, Ex by auto.
      rewrite Ey by (now rewrite <- Hd). cbn [lazy_bits]. do 2 f_equal.
      apply (bits_grown kern h h1 O1); auto. now rewrite <- Hd.
  - (* Scaled *)
    intros s p z IH h Hz. cbn [run_lazy]. destruct (IH h Hz) as (h1 & x & -> & O1 & Vx & Dx & Kx & Ex). cbn [bind].
    rewrite scalar_times_eq. eexists h1, _. split; [reflexivity|]. cbn [valid mat_layout lazy_dim lazy_kind].
    rewrite wrap_valid, wrap_layout. splits; auto.
    intros i j Hp. unfold entry in *. cbn [value]. rewrite wrap_value, Ex by auto. reflexivity.
Qed.

(** ** Laws *)

Section Laws.
Hypothesis L : semiring_laws (T := T).

Lemma sum_zero : forall n, sum_below n (fun _ => szero) = (szero : T).
Proof. induction n as [|n IH]; [reflexivity|]. cbn [sum_below]. now rewrite IH, (add_zero L). Qed.

Lemma sum_add : forall n (f g : N -> T),
  sum_below n (fun l => sadd (f l) (g l)) = sadd (sum_below n f) (sum_below n g).
Proof.
  intros n f g. induction n as [|n IH]; cbn [sum_below]; [now rewrite (add_zero L)|]. rewrite IH.
  set (a := sum_below n f). set (b := sum_below n g). set (c := f (N.of_nat n)). set (d := g (N.of_nat n)).
  rewrite <- !(add_assoc L). f_equal. rewrite !(add_assoc L). f_equal. apply (add_comm L).
Qed.

Lemma sum_scale : forall n c (f : N -> T), sum_below n (fun l => smul c (f l)) = smul c (sum_below n f).
Proof.
  intros n c f. induction n as [|n IH]; cbn [sum_below].
  - now rewrite (mul_comm L), (mul_zero L).
  - now rewrite IH, (mul_add L).
Qed.

Lemma sum_scale_right : forall n c (f : N -> T), sum_below n (fun l => smul (f l) c) = smul (sum_below n f) c.
Proof.
  intros n c f. rewrite (mul_comm L), <- sum_scale. apply sum_below_eq. intros. apply (mul_comm L).
Qed.

Lemma sum_exchange : forall n k (f : N -> N -> T),
  sum_below n (fun i => sum_below k (fun j => f i j)) = sum_below k (fun j => sum_below n (fun i => f i j)).
Proof.
  intros n k f. induction n as [|n IH]; cbn [sum_below].
  - now rewrite sum_zero.
  - now rewrite IH, <- sum_add.
Qed.

Lemma mul_add_right : forall x y z : T, smul (sadd x y) z = sadd (smul x z) (smul y z).
Proof. intros x y z. rewrite (mul_comm L), (mul_add L). now rewrite (mul_comm L z x), (mul_comm L z y). Qed.

Lemma semiring_unit : forall x : T, sadd (smul sone x) (smul szero szero) = x.
Proof. intros x. now rewrite (mul_one L), (mul_zero L), (add_comm L), (add_zero L). Qed.

Scheme term_law_both := Minimality for term_law Sort Prop
  with lazy_law_both := Minimality for lazy_law Sort Prop.
Combined Scheme laws_ind from term_law_both, lazy_law_both.

Lemma laws_values : forall F : base_matrix -> N -> N -> T,
  (forall t u, term_law t u -> term_dim t = term_dim u /\ forall i j, term_value F t i j = term_value F u i j) /\
  (forall z w, lazy_law z w -> lazy_dim z = lazy_dim w /\ forall i j, lazy_value F z i j = lazy_value F w i j).
Proof.
  intros F. apply laws_ind.
  - auto.
  - intros t u _ [D V]. auto.
  - intros t u v _ [D1 V1] _ [D2 V2]. split; [congruence|]. intros i j. now rewrite V1.
  - intros s s' t t' u u' _ [D1 V1] _ [D2 V2]. cbn [term_dim term_value]. rewrite D1, D2. split; auto.
    intros i j. apply sum_below_eq. intros l _. now rewrite V1, V2.
  - intros z z' _ [D V]. split; [exact D|exact V].
  - intros t. split; reflexivity.
  - intros s1 s2 s3 s4 t u v. split; [reflexivity|]. intros i j. cbn [term_value term_dim snd].
    transitivity (sum_below (N.to_nat (snd (term_dim u))) (fun l =>
      sum_below (N.to_nat (snd (term_dim t))) (fun k =>
        smul (smul (term_value F t i k) (term_value F u k l)) (term_value F v l j)))).
    { apply sum_below_eq. intros l _. now rewrite sum_scale_right. }
    rewrite sum_exchange. apply sum_below_eq. intros k _. rewrite <- sum_scale.
    apply sum_below_eq. intros l _. symmetry. apply (mul_assoc L).
  - intros s s1 s2 p q t u v D. split; [reflexivity|]. intros i j.
    change (sum_below (N.to_nat (snd (term_dim t))) (fun l =>
        smul (sadd (term_value F t i l) (term_value F u i l)) (term_value F v l j)) =
      sadd (sum_below (N.to_nat (snd (term_dim t))) (fun l => smul (term_value F t i l) (term_value F v l j)))
           (sum_below (N.to_nat (snd (term_dim u))) (fun l => smul (term_value F u i l) (term_value F v l j)))).
    rewrite <- D, <- sum_add. apply sum_below_eq. intros l _. apply mul_add_right.
  - intros s s1 s2 p q t u v D. split; [reflexivity|]. intros i j.
    change (sum_below (N.to_nat (snd (term_dim t))) (fun l =>
        smul (term_value F t i l) (sadd (term_value F u l j) (term_value F v l j))) =
      sadd (sum_below (N.to_nat (snd (term_dim t))) (fun l => smul (term_value F t i l) (term_value F u l j)))
           (sum_below (N.to_nat (snd (term_dim t))) (fun l => smul (term_value F t i l) (term_value F v l j)))).
    rewrite <- sum_add. apply sum_below_eq. intros l _. apply (mul_add L).
  - intros s s1 c p t u. split; [reflexivity|]. intros i j.
    change (sum_below (N.to_nat (snd (term_dim t))) (fun l =>
        smul (smul c (term_value F t i l)) (term_value F u l j)) =
      smul c (sum_below (N.to_nat (snd (term_dim t))) (fun l => smul (term_value F t i l) (term_value F u l j)))).
    rewrite <- sum_scale. apply sum_below_eq. intros l _. symmetry. apply (mul_assoc L).
  - intros s s1 c p t u. split; [reflexivity|]. intros i j.
    change (sum_below (N.to_nat (snd (term_dim t))) (fun l =>
        smul (term_value F t i l) (smul c (term_value F u l j))) =
      smul c (sum_below (N.to_nat (snd (term_dim t))) (fun l => smul (term_value F t i l) (term_value F u l j)))).
    rewrite <- sum_scale. apply sum_below_eq. intros l _.
    rewrite !(mul_assoc L). now rewrite (mul_comm L (term_value F t i l) c).
  - auto.
  - intros z w _ [D V]. auto.
  - intros z w v _ [D1 V1] _ [D2 V2]. split; [congruence|]. intros i j. now rewrite V1.
  - intros t t' _ [D V]. split; [exact D|exact V].
  - intros z. split; reflexivity.
  - intros p q p' q' z z' w w' _ [D1 V1] _ [D2 V2]. split; [exact D1|]. intros i j. cbn [lazy_value].
    now rewrite V1, V2.
  - intros c p p' z z' _ [D V]. split; [exact D|]. intros i j. cbn [lazy_value]. now rewrite V.
  - intros p q z w D. split; [exact D|]. intros i j. cbn [lazy_value]. apply (add_comm L).
  - intros p q r s z w v. split; [reflexivity|]. intros i j. cbn [lazy_value]. apply (add_assoc L).
  - intros c p q r s z w. split; [reflexivity|]. intros i j. cbn [lazy_value]. apply (mul_add L).
  - intros c d p q z. split; [reflexivity|]. intros i j. cbn [lazy_value]. apply (mul_assoc L).
  - intros p z. split; [reflexivity|]. intros i j. cbn [lazy_value]. apply (mul_one L).
Qed.
End Laws.

(** ** Bits and values *)

Lemma computes_ignores : forall kern : kernel T, computes kern -> ignores_strides kern.
Proof.
  intros kern H sh sh' _ _ _ i j alpha pairs beta old. now rewrite !H.
Qed.

(** A kernel that computes the documented formula in order gives the value. *)
Lemma bits_value : forall (kern : kernel T) F, computes kern -> exact_sums (T := T) ->
  (forall t i j, term_bits kern F t i j = term_value F t i j) /\
  (forall z i j, lazy_bits kern F z i j = lazy_value F z i j).
Proof.
  intros kern F Hk Hu. apply term_lazy_ind; cbn [term_bits lazy_bits term_value lazy_value]; auto.
  - intros s t IHt u IHu i j.
    rewrite (computes_entry kern Hk _ _ sone _ _ szero (fun _ _ => szero)). unfold product_entry. rewrite Hu.
    apply sum_below_eq. intros l _. now rewrite IHt, IHu.
  - intros p z IHz q w IHw i j. now rewrite IHz, IHw.
  - intros s p z IH i j. now rewrite IH.
Qed.

Lemma c64_bits : forall kern m h t, ignores_strides kern -> term_ok h t ->
  exists h' r, run_term kern m h t = Ok (h', r) /\ only_allocates h h' /\ base_valid h' r /\
    dim (bm_layout r) = term_dim t /\ entries_are h' r (term_bits kern (in_heap h) t).
Proof.
  intros kern m h t Hk Ht.
  destruct (proj1 (run_ok kern m Hk) t h Ht) as (h' & r & E & O & V & D & _ & _ & En).
  exists h', r. splits; auto.
Qed.
(** C52: a computation gives the entries of the matrix algebra. *)
Lemma c52 : forall kern m h t, computes kern -> exact_sums (T := T) ->
  term_ok h t ->
  exists h' r, run_term kern m h t = Ok (h', r) /\ only_allocates h h' /\ base_valid h' r /\
    dim (bm_layout r) = term_dim t /\ entries_are h' r (term_value (in_heap h) t).
Proof.
  intros kern m h t Hk Hu Ht.
  destruct (c64_bits kern m h t (computes_ignores kern Hk) Ht) as (h' & r & E & O & V & D & En).
  exists h', r. splits; auto. intros i j Hp. rewrite En by auto. f_equal. now apply bits_value.
Qed.

(** C52: computations that are equal in matrix algebra give equal results. *)
Lemma c52_laws : forall kern m m' h t u, computes kern -> semiring_laws (T := T) ->
  term_ok h t -> term_ok h u -> term_law t u ->
  exists h1 r1 h2 r2, run_term kern m h t = Ok (h1, r1) /\ run_term kern m' h u = Ok (h2, r2) /\
    same_entries h1 r1 h2 r2.
Proof.
  intros kern m m' h t u Hk L Ht Hu Hl. pose proof (fun n f => semiring_unit L (sum_below n f)) as U.
  destruct (c52 kern m h t Hk U Ht) as (h1 & r1 & E1 & _ & _ & D1 & F1).
  destruct (c52 kern m' h u Hk U Hu) as (h2 & r2 & E2 & _ & _ & D2 & F2).
  destruct (proj1 (laws_values L (in_heap h)) t u Hl) as [D V].
  exists h1, r1, h2, r2. splits; auto. split; [congruence|].
  intros [i j] Hp. rewrite F1 by auto. rewrite F2 by congruence. now rewrite V.
Qed.

(** ** Laws that hold bit for bit *)

Scheme term_bit_both := Induction for term_bit_law Sort Prop
  with lazy_bit_both := Induction for lazy_bit_law Sort Prop.

Lemma bit_laws_bits : forall unit (kern : kernel T) (F : base_matrix -> N -> N -> T), ignores_strides kern ->
  (forall x y : T, sadd x y = sadd y x) -> (unit = true -> forall x : T, smul sone x = x) ->
  forall t u, term_bit_law unit t u ->
    term_dim t = term_dim u /\ forall i j, term_bits kern F t i j = term_bits kern F u i j.
Proof.
  intros unit kern F Hk Hc H1.
  apply (term_bit_both T SC unit
    (fun t u _ => term_dim t = term_dim u /\ forall i j, term_bits kern F t i j = term_bits kern F u i j)
    (fun z w _ => lazy_dim z = lazy_dim w /\ forall i j, lazy_bits kern F z i j = lazy_bits kern F w i j));
    cbn [term_dim lazy_dim term_bits lazy_bits].
  - auto.
  - intros t u _ [D V]. auto.
  - intros t u v _ [D V] _ [D' V']. split; [congruence|]. intros i j. now rewrite V.
  - intros s s' t t' u u' _ [D V] _ [D' V']. rewrite D, D'. split; auto. intros i j.
    f_equal. apply row_and_column_eq. auto.
  - auto.
  - auto.
  - auto.
  - intros z w _ [D V]. auto.
  - intros t u v _ [D V] _ [D' V']. split; [congruence|]. intros i j. now rewrite V.
  - auto.
  - auto.
  - intros p q p' q' z z' w w' _ [D V] _ [D' V']. split; auto. intros i j. now rewrite V, V'.
  - intros c p p' z z' _ [D V]. split; auto. intros i j. now rewrite V.
  - intros p q z w D. split; auto.
  - intros p z E. split; auto.
Qed.

Lemma c64_laws : forall unit kern m m' h t u, ignores_strides kern ->
  (forall x y : T, sadd x y = sadd y x) -> (unit = true -> forall x : T, smul sone x = x) ->
  term_ok h t -> term_ok h u -> term_bit_law unit t u ->
  exists h1 r1 h2 r2, run_term kern m h t = Ok (h1, r1) /\ run_term kern m' h u = Ok (h2, r2) /\
    same_entries h1 r1 h2 r2.
Proof.
  intros unit kern m m' h t u Hk Hc H1 Ht Hu Hl.
  destruct (c64_bits kern m h t Hk Ht) as (h1 & r1 & E1 & _ & _ & D1 & F1).
  destruct (c64_bits kern m' h u Hk Hu) as (h2 & r2 & E2 & _ & _ & D2 & F2).
  destruct (bit_laws_bits unit kern (in_heap h) Hk Hc H1 t u Hl) as [D V].
  exists h1, r1, h2, r2. splits; auto. split; [congruence|].
  intros [i j] Hp. rewrite F1 by auto. rewrite F2 by congruence. now rewrite V.
Qed.

End Algebra.
