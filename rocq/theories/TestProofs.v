(** * Proofs of C47. *)

From Coq Require Import ZifyBool ZifyNat ZifyN Ring_theory Ring.
From Verif Require Import Machine MachineFacts Layouts Memory Matrix MatMul Spec MatrixSpec ExprSpec ProductSpec.
From Verif Require Import ZScalar LayoutFacts LayoutProofs MemoryFacts AccessFacts AccessProofs ConstructorProofs.
From Verif Require Import BlockProofs ExprProofs ProductProofs TestSuite.
Local Open Scope N_scope.

Section Tests.
Context {T : Type} {SC : HScalar T}.
Notation heap := (@heap T).
Implicit Types (h : heap) (b : base_matrix).

Definition entry_cells c (q : nat * N) : Prop :=
  exists p, in_range (dim (bm_layout c)) p /\ q = entry_cell c p.

(** A loop over all positions of [c] that replaces one entry after the other. *)
Lemma grid_loop : forall h c (C F : N -> N -> T) (body : N -> N -> heap -> outcome heap),
  base_valid h c -> strided_type (bm_layout c) = true -> no_aliasing (bm_layout c) -> entries_are h c C ->
  (forall i j h2, in_range (dim (bm_layout c)) (i, j) -> changes_only (entry_cells c) h h2 ->
     base_entry h2 c (i, j) = Some (C i j) ->
     body i j h2 = Ok (hset h2 (fst (entry_cell c (i, j))) (snd (entry_cell c (i, j))) (F i j))) ->
  exists h', for_range (fst (dim (bm_layout c))) (fun i h => for_range (snd (dim (bm_layout c))) (body i) h) h = Ok h' /\
    changes_only (entry_cells c) h h' /\ entries_are h' c F.
Proof.
  intros h c C F body Vc Ht Hn EC Hb.
  assert (Dc := distinct_no_aliasing _ Hn).
  set (I := fun (i j : N) (h' : heap) => changes_only (entry_cells c) h h' /\
    forall i' j', in_range (dim (bm_layout c)) (i', j') ->
      base_entry h' c (i', j') =
      Some (if (i' <? i) || ((i' =? i) && (j' <? j)) then F i' j' else C i' j')).
  destruct (for_range_inv _ (fun i h' => I i 0 h')
    (fun i h => for_range (snd (dim (bm_layout c))) (body i) h) (fst (dim (bm_layout c))) h) as (h' & E & (Ch & Fh)).
  - intros i h1 Hi I1.
    destruct (for_range_inv _ (fun j h' => I i j h') (body i) (snd (dim (bm_layout c))) h1) as (h2 & E2 & (C2 & F2)); auto.
    + intros j h2 Hj (C2 & F2).
      assert (Hp : in_range (dim (bm_layout c)) (i, j)) by (split; auto).
      pose proof (F2 i j Hp) as EC2.
      replace ((i <? i) || (i =? i) && (j <? j)) with false in EC2 by lia.
      eexists. split; [now apply Hb|]. split.
      * eapply changes_only_weaken; [|eapply changes_only_trans; [exact C2 | apply hset_changes_only]].
        intros q [Hq | ->]; auto. exists (i, j). split; auto.
      * intros i' j' Hq.
        rewrite base_entry_hset; auto; try (now apply strided_stored).
        2:{ apply base_valid_extends with h; auto. apply C2. }
        cbn [fst snd]. rewrite F2 by auto.
        destruct (N.eqb_spec i' i) as [Ei | Ei]; [destruct (N.eqb_spec j' j) as [Ej | Ej]|]; cbn [andb].
        -- subst i' j'. now replace ((i <? i) || (j <? j + 1)) with true by lia.
        -- now replace (j' <? j + 1) with (j' <? j) by lia.
        -- reflexivity.
    + exists h2. split; auto. split; auto. intros i' j' Hq. rewrite F2 by auto.
      destruct Hq as [Hi' Hj']. cbn [fst snd] in *.
      replace ((i' <? i) || (i' =? i) && (j' <? snd (dim (bm_layout c)))) with
        ((i' <? i + 1) || (i' =? i + 1) && (j' <? 0)) by lia. reflexivity.
  - split; [apply changes_only_refl|]. intros i' j' Hq. rewrite EC by auto.
    now replace ((i' <? 0) || (i' =? 0) && (j' <? 0)) with false by lia.
  - exists h'. splits; auto. intros i j Hq. rewrite Fh by auto.
    destruct Hq as [Hi' Hj']. cbn [fst snd] in *.
    now replace ((i <? fst (dim (bm_layout c))) || (i =? fst (dim (bm_layout c))) && (j <? 0)) with true by lia.
Qed.

Lemma update_ok : forall m h c i j v f, base_valid h c -> container_is_mut (bm_data c) = true ->
  stored (bm_layout c) (i, j) -> base_entry h c (i, j) = Some v ->
  update m h (MBase c) i j f = Ok (hset h (fst (entry_cell c (i, j))) (snd (entry_cell c (i, j))) (f v)).
Proof.
  intros m h c i j v f Vc Hm Hp E. unfold update.
  assert (Hw : writes_to (@MBase T c) = Some c) by (cbn; now rewrite Hm).
  destruct (c09_get_mut m h (MBase c) c i j Vc Hw) as [G _]. rewrite G by exact Hp. cbn [bind].
  unfold place_read, place_write. cbn [pl_alloc pl_index]. unfold base_entry in E. rewrite E. reflexivity.
Qed.

Lemma hset_twice : forall h a i v w, hset (hset h a i v) a i w = hset h a i w.
Proof.
  assert (U : forall (A : Type) (l : list A) n x y, upd (upd l n x) n y = upd l n y).
  { intros A l. induction l as [|z l IH]; intros [|n] x y; cbn; auto. now rewrite IH. }
  assert (Un : forall (A : Type) (l : list A) n x, (n < length l)%nat -> nth_error (upd l n x) n = Some x).
  { intros A l. induction l as [|z l IH]; intros [|n] x H; cbn in *; auto; try lia. apply IH. lia. }
  intros h a i v w. unfold hset. destruct (nth_error h a) as [l|] eqn:E.
  - rewrite Un by (apply nth_error_Some; congruence). now rewrite !U.
  - now rewrite E.
Qed.

(** What the reference implementation leaves in an entry. *)
Fixpoint expect_entry (alpha : T) (A B : N -> N -> T) (beta : T) (C : N -> N -> T) (i j : N) (k : nat) : T :=
  match k with
  | O => smul (C i j) beta
  | S k' => sadd (expect_entry alpha A B beta C i j k')
                 (smul (smul alpha (A i (N.of_nat k'))) (B (N.of_nat k') j))
  end.

Lemma entries_kept : forall h h' c a A, changes_only (entry_cells c) h h' -> no_overlap a c ->
  entries_are h a A -> entries_are h' a A.
Proof.
  intros h h' c a A Ch No E i j Hp. rewrite <- E by auto. unfold base_entry. apply Ch.
  intros (p & Hp' & Ep). rewrite <- surjective_pairing in Ep. now apply (No _ _ Hp Hp').
Qed.

Lemma get_entry : forall m h b A i j, base_valid h b -> strided_type (bm_layout b) = true -> entries_are h b A ->
  in_range (dim (bm_layout b)) (i, j) -> get m h (MBase b) i j = Ok (A i j).
Proof.
  intros m h b A i j Vb Ht E Hp.
  destruct (c09_get m h (MBase b) i j Vb) as [G _].
  destruct G as (v & -> & Ev); [now apply strided_stored|]. change (base_entry h b (i, j) = Some v) in Ev.
  rewrite E in Ev by auto. now injection Ev as ->.
Qed.

Lemma expect_ok : forall m h alpha a b beta c A B C,
  base_valid h a -> base_valid h b -> base_valid h c ->
  strided_type (bm_layout a) = true -> strided_type (bm_layout b) = true -> strided_type (bm_layout c) = true ->
  container_is_mut (bm_data c) = true -> no_aliasing (bm_layout c) -> no_overlap a c -> no_overlap b c ->
  compatible (dim (bm_layout a)) (dim (bm_layout b)) (dim (bm_layout c)) ->
  entries_are h a A -> entries_are h b B -> entries_are h c C ->
  exists h', matmul_expect m h alpha a b beta c = Ok h' /\ changes_only (entry_cells c) h h' /\
    entries_are h' c (fun i j => expect_entry alpha A B beta C i j (N.to_nat (snd (dim (bm_layout a))))).
Proof.
  intros m h alpha a b beta c A B C Va Vb Vc Ha Hb Hc Hm Hn Na Nb (D1 & D2 & D3) EA EB EC.
  unfold matmul_expect. rewrite <- D2, <- D3. apply grid_loop with (C := C); auto.
  intros i j h2 Hp C2 E2. pose proof Hp as [Hi Hj]. cbn [fst snd] in Hi, Hj.
  assert (Hx : extends h h2) by apply C2.
  assert (Vc2 : base_valid h2 c) by now apply base_valid_extends with h.
  rewrite (update_ok m h2 c i j (C i j)); auto using strided_stored. cbn [bind].
  set (q := entry_cell c (i, j)) in *.
  destruct (for_range_inv _ (fun l h3 => h3 = hset h2 (fst q) (snd q) (expect_entry alpha A B beta C i j (N.to_nat l)))
    (fun k_index h3 => x <- get m h3 (MBase a) i k_index;; y <- get m h3 (MBase b) k_index j;;
       update m h3 (MBase c) i j (fun v => sadd v (smul (smul alpha x) y)))
    (snd (dim (bm_layout a))) (hset h2 (fst q) (snd q) (smul (C i j) beta))) as (h3 & E3 & ->); auto.
  intros l h0 Hl ->.
  set (h3 := hset h2 (fst q) (snd q) (expect_entry alpha A B beta C i j (N.to_nat l))).
  assert (C3 : changes_only (entry_cells c) h h3).
  { eapply changes_only_weaken; [|eapply changes_only_trans; [exact C2 | apply hset_changes_only]].
    intros x [Hq | ->]; auto. exists (i, j). split; auto. }
  assert (Hx3 : extends h h3) by apply C3.
  rewrite (get_entry m h3 a A), (get_entry m h3 b B); eauto using base_valid_extends, entries_kept;
    try (split; cbn [fst snd]; lia).
  cbn [bind].
  rewrite (update_ok m h3 c i j (expect_entry alpha A B beta C i j (N.to_nat l)));
    eauto using base_valid_extends.
  - eexists. split; [reflexivity|]. fold q. unfold h3. rewrite hset_twice.
    replace (N.to_nat (l + 1)) with (S (N.to_nat l)) by lia. cbn [expect_entry]. now rewrite N2Nat.id.
  - now apply strided_stored.
  - unfold h3, q. rewrite base_entry_hset; auto using distinct_no_aliasing; try now apply strided_stored.
    cbn [fst snd]. now rewrite !N.eqb_refl.
  - now apply strided_stored.
Qed.

Lemma bounded_dec : forall (P : N -> Prop), (forall i, P i \/ ~ P i) ->
  forall n, (exists i, i < n /\ P i) \/ ~ exists i, i < n /\ P i.
Proof.
  intros P D n. induction n as [|n IH] using N.peano_ind.
  - right. intros (i & Hi & _). lia.
  - destruct IH as [(i & Hi & Pi) | No]; [left; exists i; split; auto; lia|].
    destruct (D n) as [Pn | Nn]; [left; exists n; split; auto; lia|].
    right. intros (i & Hi & Pi). destruct (N.eq_dec i n) as [-> | Ne]; auto. apply No. exists i. split; auto. lia.
Qed.

Lemma entry_cells_dec : forall c q, entry_cells c q \/ ~ entry_cells c q.
Proof.
  intros c q.
  destruct (bounded_dec (fun i => exists j, j < snd (dim (bm_layout c)) /\ q = entry_cell c (i, j))) with
    (n := fst (dim (bm_layout c))) as [(i & Hi & j & Hj & E) | No].
  - intros i. apply bounded_dec. intros j.
    destruct q as [x y], (entry_cell c (i, j)) as [x' y'].
    destruct (Nat.eq_dec x x') as [-> | Ne]; [|right; congruence].
    destruct (N.eq_dec y y') as [-> | Ne]; [now left | right; congruence].
  - left. exists (i, j). split; auto. split; auto.
  - right. intros ([i j] & [Hi Hj] & E). apply No. exists i. split; auto. exists j. auto.
Qed.

(** Two heaps that agree everywhere. *)
Lemma same_heap : forall (P : nat * N -> Prop) h h1 h2, changes_only P h h1 -> changes_only P h h2 ->
  (forall a i, P (a, i) -> hget h1 a i = hget h2 a i) -> (forall a i, P (a, i) \/ ~ P (a, i)) -> h1 = h2.
Proof.
  intros P h h1 h2 (L1 & X1 & F1) (L2 & X2 & F2) HP Dec.
  assert (G : forall a i, hget h1 a i = hget h2 a i).
  { intros a i. destruct (Dec a i) as [Hp|Hp]; auto. now rewrite F1, F2. }
  assert (Ext : forall (A : Type) (l l' : list A), length l = length l' ->
    (forall n, (n < length l)%nat -> nth_error l n = nth_error l' n) -> l = l').
  { intros A l. induction l as [|x l IH]; intros [|y l'] Hl Hn; cbn in Hl; try lia; auto.
    pose proof (Hn O ltac:(cbn; lia)) as H0. cbn in H0. injection H0 as ->. f_equal.
    apply IH; [lia|]. intros n Hn'. apply (Hn (S n)). cbn. lia. }
  apply Ext; [lia|]. intros a Ha.
  destruct (nth_error h a) as [l|] eqn:E.
  2:{ apply nth_error_None in E. lia. }
  destruct (X1 a l E) as (l1 & E1 & Hl1). destruct (X2 a l E) as (l2 & E2 & Hl2).
  rewrite E1, E2. f_equal. apply Ext; [lia|]. intros n Hn.
  specialize (G a (N.of_nat n)). unfold hget in G. rewrite E1, E2, Nat2N.id in G. exact G.
Qed.

(** Exact arithmetic: the laws of a commutative semiring. *)
Section Exact.
Hypothesis laws : semi_ring_theory szero sone sadd smul (@eq T).
Add Ring Tring : laws.

Lemma expect_exact : forall alpha A B beta C i j k,
  expect_entry alpha A B beta C i j (N.to_nat k) = product_entry k alpha A B beta C i j.
Proof.
  intros alpha A B beta C i j k. unfold product_entry. induction (N.to_nat k) as [|n IH]; cbn [expect_entry sum_below].
  - ring.
  - rewrite IH. ring.
Qed.

Lemma c47 : forall kern m h alpha a b beta c A B C, computes kern ->
  base_valid h a -> base_valid h b -> base_valid h c ->
  strided_type (bm_layout a) = true -> strided_type (bm_layout b) = true -> strided_type (bm_layout c) = true ->
  container_is_mut (bm_data c) = true -> no_aliasing (bm_layout c) -> no_overlap a c -> no_overlap b c ->
  compatible (dim (bm_layout a)) (dim (bm_layout b)) (dim (bm_layout c)) ->
  entries_are h a A -> entries_are h b B -> entries_are h c C ->
  exists h', matmul_expect m h alpha a b beta c = Ok h' /\
    changes_only (fun q => exists p, in_range (dim (bm_layout c)) p /\ q = entry_cell c p) h h' /\
    entries_are h' c (product_entry (snd (dim (bm_layout a))) alpha A B beta C) /\
    (true_strides (bm_layout a) -> true_strides (bm_layout b) -> true_strides (bm_layout c) ->
     matmul kern h alpha a b beta c = Ok h').
Proof.
  intros kern m h alpha a b beta c A B C Hk Va Vb Vc Ha Hb Hc Hm Hn Na Nb Hd EA EB EC.
  destruct (expect_ok m h alpha a b beta c A B C) as (h' & E & Ch & F); auto.
  assert (F' : entries_are h' c (product_entry (snd (dim (bm_layout a))) alpha A B beta C)).
  { eapply entries_are_ext; [|exact F]. intros i j. apply expect_exact. }
  exists h'. splits; auto. intros Ta Tb Tc.
  destruct (c32 kern h alpha a b beta c A B C) as (h2 & sh & E2 & Ch2 & _ & _ & _ & F2); auto.
  rewrite E2. f_equal.
  apply (same_heap (entry_cells c) h); auto.
  - intros x i (p & Hp & Eq).
    assert (X : base_entry h2 c p = base_entry h' c p).
    { destruct p as [r k]. rewrite F2, F' by auto. f_equal. now apply computes_entry. }
    unfold base_entry in X. rewrite <- Eq in X. exact X.
  - intros x i. apply entry_cells_dec.
Qed.

Definition fresh_operand h h1 x (l : layout) : Prop :=
  fresh_zeros h h1 x /\ bm_layout x = l /\ product_operand l = true /\ has_strides l = false.

Definition vector_layout (o : order) (d : N * N) : layout :=
  match o with ByRow => RowVector (snd d) | ByColumn => ColumnVector (fst d) end.

Definition left_layout (shape : dot_shape) (d : N * N) : layout :=
  match shape with RowMatrix => vector_layout ByRow d | _ => RowMajor d end.
Definition right_layout (shape : dot_shape) (d : N * N) : layout :=
  match shape with MatrixColumn => vector_layout ByColumn d | _ => RowMajor d end.
Definition result_layout (shape : dot_shape) (d : N * N) : layout :=
  match shape with RowMatrix => vector_layout ByRow d | MatrixColumn => vector_layout ByColumn d | _ => RowMajor d end.

Lemma zeros_operand : forall m h rows cols, rows * cols * Npos ssize <= isize_max ->
  exists h1 x, zeros_from_dim m h KRowMajor rows cols = Ok (h1, x) /\ fresh_operand h h1 x (RowMajor (rows, cols)).
Proof.
  intros m h rows cols Hn. destruct (zeros_ok m h KRowMajor rows cols _ eq_refl) as (h1 & x & E & L & _ & _ & _ & Z & _); auto.
  exists h1, x. split; auto. split; auto.
Qed.
Lemma row_operand : forall m h rows cols, rows = 1 -> rows * cols * Npos ssize <= isize_max ->
  exists h1 x, row_vector_zeros_from_length m h cols = Ok (h1, x) /\
    fresh_operand h h1 x (vector_layout ByRow (rows, cols)).
Proof.
  intros m h rows cols -> Hn. destruct (row_vector_ok m h cols) as (h1 & x & E & L & _ & Z & _); [lia|].
  exists h1, x. split; auto. split; auto.
Qed.
Lemma column_operand : forall m h rows cols, cols = 1 -> rows * cols * Npos ssize <= isize_max ->
  exists h1 x, column_vector_zeros_from_length m h rows = Ok (h1, x) /\
    fresh_operand h h1 x (vector_layout ByColumn (rows, cols)).
Proof.
  intros m h rows cols -> Hn. destruct (column_vector_ok m h rows) as (h1 & x & E & L & _ & Z & _); [lia|].
  exists h1, x. split; auto. split; auto.
Qed.

Lemma fresh_alloc : forall h h1 x l, fresh_operand h h1 x l ->
  (length h <= r_alloc (c_region (bm_data x)) < length h1)%nat /\ extends h h1 /\ base_valid h1 x /\
  container_is_mut (bm_data x) = true /\ no_aliasing (bm_layout x) /\ strided_type (bm_layout x) = true /\
  true_strides (bm_layout x).
Proof.
  intros h h1 x l ((Oa & Vx & Al & Mx & _) & <- & Po & Ns).
  splits; auto using only_allocates_extends, operand_true.
  - apply region_ok_alloc. apply Vx.
  - intros E. congruence.
  - now apply true_strided_type, operand_true.
Qed.

Lemma other_alloc : forall x y, r_alloc (c_region (bm_data x)) <> r_alloc (c_region (bm_data y)) -> no_overlap x y.
Proof. intros x y H p q _ _ E. apply H. injection E as E _. exact E. Qed.

Lemma copy_ok : forall m h from to C, base_valid h from -> base_valid h to ->
  bm_layout from = bm_layout to -> strided_type (bm_layout to) = true -> container_is_mut (bm_data to) = true ->
  no_aliasing (bm_layout to) -> no_overlap from to -> entries_are h from C ->
  exists h', copy_entries m h from to = Ok h' /\ changes_only (entry_cells to) h h' /\ entries_are h' to C.
Proof.
  intros m h from to C Vf Vt El Ht Hm Hn No EC. unfold copy_entries. rewrite El.
  rewrite number_of_elements_ok by (eapply valid_small with (x := MBase to); exact Vt). cbn [bind].
  destruct (for_range_inv _ (fun n h1 => changes_only (entry_cells to) h h1 /\
      forall i, i < n -> i < entry_count (bm_layout to) -> base_entry h1 to (pos (bm_layout to) i) =
        Some (C (fst (pos (bm_layout to) i)) (snd (pos (bm_layout to) i))))
    (fun index h => v <- get1d m h (MBase from) index;; set1d m h (MBase to) index v)
    (entry_count (bm_layout to)) h) as (h' & E & (Ch & Fh)).
  - intros n h1 Hn1 (C1 & F1). assert (Hx : extends h h1) by apply C1.
    assert (V1 : base_valid h1 from) by eauto using base_valid_extends.
    assert (V2 : base_valid h1 to) by eauto using base_valid_extends.
    destruct (get1d_stored m h1 (MBase from) n V1) as (v & Ev & Hv); [cbn [mat_layout]; now rewrite El|].
    rewrite Ev. cbn [bind].
    rewrite (set1d_stored m h1 (MBase to) to) by (auto; cbn; now rewrite Hm).
    destruct (pos_spec (bm_layout to) n Hn1) as [Hp _].
    destruct (set_stored m h1 (MBase to) to (fst (pos (bm_layout to) n)) (snd (pos (bm_layout to) n)) v)
      as (h2 & E2 & Eh2 & O2); auto.
    { cbn. now rewrite Hm. }
    cbn [mat_layout] in *. exists h2. split; auto. rewrite <- surjective_pairing in *.
    assert (Ev2 : v = C (fst (pos (bm_layout to) n)) (snd (pos (bm_layout to) n))).
    { pose proof (entries_kept _ _ _ _ _ C1 No EC (fst (pos (bm_layout to) n)) (snd (pos (bm_layout to) n))) as K.
      rewrite El, <- surjective_pairing in K. unfold entry in Hv. cbn [value mat_layout] in Hv. rewrite El in Hv.
      unfold base_entry in *. rewrite K in Hv by apply Hp. congruence. }
    split.
    + eapply changes_only_weaken; [|eapply changes_only_trans; [exact C1 | apply O2]].
      intros q [Hq | ->]; auto. exists (pos (bm_layout to) n). split; [apply Hp|]. now rewrite <- surjective_pairing.
    + intros i Hi Hic. destruct (N.eq_dec i n) as [-> | Ne].
      * destruct O2 as [_ G]. unfold base_entry. rewrite G. now f_equal.
      * rewrite <- F1 by lia. unfold base_entry. destruct O2 as [(_ & _ & Fr) _]. apply Fr.
        intros Eq. rewrite <- !surjective_pairing in Eq.
        apply distinct_no_aliasing in Hn. destruct (pos_spec (bm_layout to) i Hic) as [Hpi _].
        apply entry_cell_inj in Eq; auto.
        apply Ne. rewrite <- (number_pos (bm_layout to) i), <- (number_pos (bm_layout to) n) by auto. now rewrite Eq.
  - split; [apply changes_only_refl | intros; lia].
  - exists h'. splits; auto. intros i j Hp.
    assert (Hs : stored (bm_layout to) (i, j)) by now apply strided_stored.
    specialize (Fh (number (bm_layout to) (i, j)) (number_bound _ _ _ Hs) (number_bound _ _ _ Hs)).
    now rewrite pos_number in Fh by auto.
Qed.


Lemma c47_test : forall (G : Type) (random_scalar : G -> T * G) kern shape m rows inner cols g, computes kern ->
  shape_fits shape (rows, inner) (inner, cols) ->
  rows * inner * Npos ssize <= isize_max -> inner * cols * Npos ssize <= isize_max ->
  rows * cols * Npos ssize <= isize_max ->
  exists h actual expect n, product_test random_scalar kern shape m rows inner cols g = Ok (h, actual, expect) /\
    number_of_elements m (bm_layout actual) = Ok n /\ n = rows * cols /\
    forall i, i < n -> exists v, get1d m h (MBase actual) i = Ok v /\ get1d m h (MBase expect) i = Ok v.
Proof.
  intros G rs kern shape m rows inner cols g Hk Hs Ha Hb Hc. unfold product_test.
  assert (XA : exists h1 x, test_left shape m [] rows inner = Ok (h1, x) /\ fresh_operand [] h1 x (left_layout shape (rows, inner))).
  { destruct shape; cbn [test_left left_layout shape_fits fst] in *; auto using zeros_operand, row_operand. }
  destruct XA as (h1 & a & -> & Fa). cbn [bind].
  assert (XB : exists h2 x, test_right shape m h1 inner cols = Ok (h2, x) /\ fresh_operand h1 h2 x (right_layout shape (inner, cols))).
  { destruct shape; cbn [test_right right_layout shape_fits snd] in *; auto using zeros_operand, column_operand. }
  destruct XB as (h2 & b & -> & Fb). cbn [bind].
  assert (XC : forall k, exists k' x, test_result shape m k rows cols = Ok (k', x) /\
    fresh_operand k k' x (result_layout shape (rows, cols))).
  { intros k. destruct shape; cbn [test_result result_layout shape_fits fst snd] in *;
      auto using zeros_operand, row_operand, column_operand. }
  destruct (XC h2) as (h3 & c & -> & Fc). cbn [bind]. destruct (XC h3) as (h4 & d & -> & Fd). cbn [bind].
  clear XC.
  assert (Da : dim (bm_layout a) = (rows, inner)).
  { destruct Fa as (_ & -> & _). destruct shape; cbn in *; congruence. }
  assert (Db : dim (bm_layout b) = (inner, cols)).
  { destruct Fb as (_ & -> & _). destruct shape; cbn in *; congruence. }
  assert (Dc : dim (bm_layout c) = (rows, cols)).
  { destruct Fc as (_ & -> & _). destruct shape; cbn in *; congruence. }
  assert (Lcd : bm_layout c = bm_layout d).
  { destruct Fc as (_ & -> & _), Fd as (_ & -> & _). reflexivity. }
  assert (Nc : entry_count (bm_layout c) = rows * cols).
  { destruct Fc as (_ & -> & _). destruct shape; cbn [result_layout vector_layout entry_count dim fst snd shape_fits] in *; subst; lia. }
  pose proof (fresh_alloc _ _ _ _ Fa) as (La & X1 & Va & Ma & Aa & Sa & Ta).
  pose proof (fresh_alloc _ _ _ _ Fb) as (Lb & X2 & Vb & Mb & Ab & Sb & Tb).
  pose proof (fresh_alloc _ _ _ _ Fc) as (Lc & X3 & Vc & Mc & Ac & Sc & Tc).
  pose proof (fresh_alloc _ _ _ _ Fd) as (Ld & X4 & Vd & Md & Ad & Sd & Td).
  clear Fa Fb Fc Fd.
  assert (Va4 : base_valid h4 a) by eauto 10 using base_valid_extends.
  assert (Vb4 : base_valid h4 b) by eauto 10 using base_valid_extends.
  assert (Vc4 : base_valid h4 c) by eauto 10 using base_valid_extends.
  assert (O : no_overlap a c /\ no_overlap b c /\ no_overlap a d /\ no_overlap b d /\ no_overlap c d /\ no_overlap d c).
  { splits; apply other_alloc; lia. }
  destruct O as (Oac & Obc & Oad & Obd & Ocd & Odc).
  clear La Lb Lc Ld Va Vb Vc X1 X2 X3 X4.
  destruct (c31 G rs m h4 a g) as (h5 & xa & ga & _ & -> & _ & (_ & X5 & _)); auto. cbn [bind].
  destruct (c31 G rs m h5 b ga) as (h6 & xb & gb & _ & -> & _ & (_ & X6 & _)); eauto using base_valid_extends. cbn [bind].
  destruct (c31 G rs m h6 c gb) as (h7 & xc & gc & _ & -> & _ & (_ & X7 & _)); eauto using base_valid_extends. cbn [bind].
  assert (X : extends h4 h7) by eauto using extends_trans.
  assert (Va7 : base_valid h7 a) by eauto using base_valid_extends.
  assert (Vb7 : base_valid h7 b) by eauto using base_valid_extends.
  assert (Vc7 : base_valid h7 c) by eauto using base_valid_extends.
  assert (Vd7 : base_valid h7 d) by eauto using base_valid_extends.
  clear Va4 Vb4 Vc4 Vd X X5 X6 X7.
  destruct (entries_exist h7 c Vc7 Sc) as (C & EC).
  destruct (copy_ok m h7 c d C) as (h8 & -> & C8 & ED8); auto. cbn [bind].
  assert (EC8 : entries_are h8 c C) by eauto using entries_kept.
  assert (X8 : extends h7 h8) by apply C8.
  assert (Va8 : base_valid h8 a) by eauto using base_valid_extends.
  assert (Vb8 : base_valid h8 b) by eauto using base_valid_extends.
  assert (Vc8 : base_valid h8 c) by eauto using base_valid_extends.
  assert (Vd8 : base_valid h8 d) by eauto using base_valid_extends.
  clear Va7 Vb7 Vc7 Vd7 C8 X8 EC.
  destruct (rs gc) as [alpha g1]. destruct (rs g1) as [beta g2].
  destruct (entries_exist h8 a Va8 Sa) as (A & EA). destruct (entries_exist h8 b Vb8 Sb) as (B & EB).
  assert (Hcm : compatible (dim (bm_layout a)) (dim (bm_layout b)) (dim (bm_layout c))).
  { rewrite Da, Db, Dc. repeat split. }
  destruct (c47 kern m h8 alpha a b beta d A B C) as (h9 & -> & C9 & ED9 & _); auto.
  { now rewrite <- Lcd. }
  cbn [bind]. assert (X9 : extends h8 h9) by apply C9.
  destruct (c32 kern h9 alpha a b beta c A B C) as (h' & sh & -> & Ch & _ & _ & _ & Eh);
    eauto using base_valid_extends; try (eapply entries_kept; [exact C9| |]; auto).
  cbn [bind].
  assert (ED : entries_are h' d (product_entry (snd (dim (bm_layout a))) alpha A B beta C)).
  { eapply entries_kept; [exact Ch| |]; auto. }
  assert (X' : extends h8 h') by (eapply extends_trans; [exact X9 | apply Ch]).
  exists h', c, d, (rows * cols). splits; auto.
  { rewrite <- Nc. apply number_of_elements_ok. eapply valid_small with (x := MBase c). exact Vc8. }
  intros i Hi. rewrite <- Nc in Hi.
  destruct (get1d_stored m h' (MBase c) i) as (v & Ev & Hv); [eapply base_valid_extends; eauto | exact Hi|].
  destruct (get1d_stored m h' (MBase d) i) as (w & Ew & Hw);
    [eapply base_valid_extends; eauto | cbn [mat_layout]; now rewrite <- Lcd|].
  exists v. split; auto. rewrite Ew. f_equal. unfold entry in Hv, Hw. cbn [value mat_layout] in Hv, Hw.
  rewrite <- Lcd in Hw. destruct (pos_spec _ _ Hi) as [[Hp _] _]. rewrite (surjective_pairing (pos _ _)) in Hp, Hv, Hw.
  rewrite ED in Hw by (rewrite <- Lcd; exact Hp). rewrite Eh in Hv by exact Hp.
  rewrite (computes_entry kern Hk) in Hv. congruence.
Qed.

End Exact.
End Tests.
