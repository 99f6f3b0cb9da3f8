(** * InterleaveEntries: threads that hold disjoint entries take turns inside of calls; lemmas for C61. *)

From Coq Require Import Lia ZifyBool ZifyNat ZifyN.
From Verif Require Import Machine MachineFacts Layouts Memory Matrix MatMul Spec MatrixSpec ExprSpec ProductSpec.
From Verif Require Import LayoutFacts MemoryFacts AccessFacts AccessProofs ExprProofs ConstructorProofs.
From Verif Require Import ProductProofs Program HistorySpec HistoryProofs HistorySafety Borrow BorrowFacts BorrowProofs.
From Verif Require Import Threads ThreadProofs ThreadEntries Interleave InterleaveProofs InterleaveMachine.
Local Open Scope N_scope.

Section Entries.
Context {T : Type} {SC : HScalar T} {St : Type}.
Notation heap := (@heap T).
Notation fits := InterleaveProofs.fits.

(** ** Accesses to entries *)

Lemma p_get_below : forall m (h : heap) (x : matrix T) r c, valid h x -> in_range (dim (mat_layout x)) (r, c) ->
  ~ stored (mat_layout x) (r, c) -> p_get_unchecked m x r c = Stop Panic.
Proof.
  intros m h x r c. induction x as [b | x IH | x IH | x IH s | x IHx y IHy l]; cbn [valid mat_layout p_get_unchecked]; auto.
  - intros Hv Hr Hp. unfold p_base_get_unchecked. rewrite below_diagonal_panics by auto. reflexivity.
  - intros Hv Hr Hp. rewrite IH by auto. reflexivity.
  - intros (Hx & Hy & Hd & Hk & ->) Hr Hp. rewrite index_layout_dim in Hr. rewrite IHx; auto.
    intros C. apply Hp. now apply index_layout_stored.
Qed.

Section Footprints.
Variables (n : nat) (R W : nat * N -> Prop).
Hypothesis fresh : forall q, (n <= fst q)%nat -> R q /\ W q.

Lemma efits_read : forall b p (Q : bool -> T -> Prop) d, R (entry_cell b p) -> (forall v, Q d v) ->
  fits n R W d (p_region_read (c_region (bm_data b)) (cell (bm_layout b) p)) Q.
Proof. intros b p Q d H HQ. unfold p_region_read. destruct (_ <? _); cbn [InterleaveProofs.fits]; auto. Qed.

Lemma efits_unchecked : forall m (h : heap) x, valid h x -> ecov R x -> forall (Q : bool -> T -> Prop), (forall v, Q false v) ->
  (forall r c, stored (mat_layout x) (r, c) -> fits n R W false (p_get_unchecked m x r c) Q) /\
  (forall i, i < entry_count (mat_layout x) -> fits n R W false (p_get1d_unchecked m x i) Q).
Proof.
  intros m h x. induction x as [b | x IH | x IH | x IH s | x IHx y IHy l]; intros Hv Hc Q HQ;
    cbn [p_get_unchecked p_get1d_unchecked mat_layout valid] in *.
  - split.
    + intros r c Hp. unfold p_base_get_unchecked. apply fits_bind, fits_pure. intros i Hi. rewrite (base_address m h) in Hi by auto.
      injection Hi as <-. apply efits_read; auto. apply Hc. exists (r, c). auto.
    + intros i Hi. unfold p_base_get1d_unchecked. apply fits_bind, fits_pure. intros j Hj. rewrite (base_address_1d m h) in Hj by auto.
      injection Hj as <-. apply efits_read; auto. apply Hc. exists (pos (bm_layout b) i). split; auto. now apply pos_spec.
  - apply IH; auto.
  - apply IH; auto.
  - split; intros; apply fits_bind; apply IH; cbn [InterleaveProofs.fits]; auto.
  - destruct Hv as (Hx & Hy & Hd & Hk & ->).
    assert (Cx : ecov R x) by (intros q Hq; apply Hc; now left). assert (Cy : ecov R y) by (intros q Hq; apply Hc; now right).
    split.
    + intros r c Hp. apply (proj1 (index_layout_stored _ _)) in Hp. apply fits_bind, IHx; auto. intros v. apply fits_bind, IHy; auto.
      * intros w. cbn [InterleaveProofs.fits]. auto.
      * now apply (same_kind_stored (mat_layout x)).
    + intros i Hi.
      assert (Ei : entry_count (index_layout (mat_layout x)) = entry_count (mat_layout x))
        by (apply same_kind_count; [apply index_layout_dim|apply index_layout_kind]).
      rewrite Ei in Hi. apply fits_bind, IHx; auto. intros v. apply fits_bind, IHy; auto.
      * intros w. cbn [InterleaveProofs.fits]. auto.
      * rewrite <- (same_kind_count (mat_layout x)); auto.
Qed.

Lemma efits_get : forall m (h : heap) x r c (Q : bool -> T -> Prop), valid h x -> ecov R x -> (forall v, Q false v) ->
  fits n R W false (p_get m x r c) Q.
Proof.
  intros m h x r c Q Hv Hc HQ. unfold p_get. apply fits_bind.
  destruct (assert_dimension_cases r c (dim (mat_layout x))) as [[Hr ->] | [Hr ->]]; cbn [InterleaveProofs.fits]; auto.
  destruct (stored_dec (mat_layout x) (r, c)) as [Hp|Hp].
  - eapply efits_unchecked; eauto.
  - rewrite (p_get_below m h) by auto. reflexivity.
Qed.

Lemma efits_get1d : forall m (h : heap) x i (Q : bool -> T -> Prop), valid h x -> ecov R x -> (forall v, Q false v) ->
  fits n R W false (p_get1d m x i) Q.
Proof.
  intros m h x i Q Hv Hc HQ. unfold p_get1d. apply fits_bind.
  rewrite number_of_elements_ok by (eapply valid_small; eauto). cbn [InterleaveProofs.fits]. apply fits_bind, fits_pure.
  intros u Hu. unfold assert_dimension1d, assert_ in Hu. destruct (N.ltb_spec i (entry_count (mat_layout x))); [|discriminate].
  eapply efits_unchecked; eauto.
Qed.

Lemma efits_mut : forall m (h : heap) x r c p, valid h x -> is_writable x = true -> ecov W x -> get_mut m x r c = Ok p ->
  W (pl_alloc p, pl_index p).
Proof.
  intros m h x r c p Hv Hw Hc E. apply writable_base in Hw. destruct Hw as (b & Hb).
  destruct (stored_dec (mat_layout x) (r, c)) as [Hp|Hp].
  - rewrite (get_mut_stored m h x b) in E by auto. injection E as <-. cbn [place_of pl_alloc pl_index]. apply Hc. eapply has_cell_base; eauto.
    exists (r, c). rewrite <- (writes_to_layout _ _ Hb). split; auto.
  - destruct (set_not_stored m h x b r c szero Hv Hb Hp) as [_ E']. congruence.
Qed.

Lemma efits_mut1d : forall m (h : heap) x i p, valid h x -> is_writable x = true -> ecov W x -> get1d_mut m x i = Ok p ->
  W (pl_alloc p, pl_index p).
Proof.
  intros m h x i p Hv Hw Hc E. apply writable_base in Hw. destruct Hw as (b & Hb).
  destruct (N.ltb_spec i (entry_count (mat_layout x))) as [Hi|Hi].
  - rewrite (get1d_mut_stored m h x b) in E by auto. injection E as <-. cbn [place_of pl_alloc pl_index]. apply Hc. eapply has_cell_base; eauto.
    exists (pos (mat_layout x) i). rewrite <- (writes_to_layout _ _ Hb). split; [now apply pos_spec|auto].
  - rewrite (get1d_mut_not_stored m h) in E by auto. discriminate.
Qed.

Lemma fits_loop_bound : forall k i (body : N -> prog T unit) (Q : bool -> unit -> Prop),
  (forall j (P : bool -> unit -> Prop), i <= j < i + N.of_nat k -> P false tt -> fits n R W false (body j) P) ->
  Q false tt -> fits n R W false (p_loop k i body) Q.
Proof.
  intros k. induction k as [|k IH]; intros i body Q H HQ; cbn [p_loop InterleaveProofs.fits]; auto.
  apply fits_bind. apply H; [lia|]. apply IH; auto. intros j P Hj HP. apply H; auto. lia.
Qed.

Lemma efits_eval : forall m (h : heap) x (Q : bool -> base_matrix -> Prop), valid h x -> ecov R x ->
  (forall b, new_base n b -> Q false b) -> fits n R W false (p_eval m x) Q.
Proof.
  intros m h x Q Hv Hc HQ. unfold p_eval. cbv zeta. apply fits_bind, fits_zeros. intros b Hb.
  rewrite number_of_elements_ok by (eapply valid_small; eauto). apply fits_bind. cbn [InterleaveProofs.fits].
  apply fits_bind. apply fits_loop_bound.
  - intros j P Hj HP. apply fits_bind. eapply efits_unchecked; eauto; [|lia]. intros v. now apply fits_new_write.
  - cbn [InterleaveProofs.fits]. auto.
Qed.

Lemma efits_for_each : forall S m (h : heap) b (f : closure (T := T) S) s (Q : bool -> S * bool -> Prop), base_valid h b ->
  ecov R (MBase (T := T) b) -> ecov W (MBase (T := T) b) -> (forall d a, Q d a) -> fits n R W false (p_for_each m b f s) Q.
Proof.
  intros S m h b f s Q Hv HR HW HQ. unfold p_for_each. apply fits_bind. rewrite number_of_elements_ok by apply Hv. cbn [InterleaveProofs.fits].
  assert (G : forall k i s d, i + N.of_nat k <= entry_count (bm_layout b) -> fits n R W d (p_for_each_loop m b f k i s) Q).
  2:{ apply G. lia. }
  intros k. induction k as [|k IH]; intros i s0 d Hi; cbn [p_for_each_loop InterleaveProofs.fits]; auto.
  apply fits_bind. unfold p_call_closure. rewrite (base_get1d_unchecked_mut_ok m h) by (auto; lia).
  assert (C : has_cell (MBase (T := T) b) (entry_cell b (pos (bm_layout b) i))).
  { exists (pos (bm_layout b) i). split; auto. apply pos_spec. lia. }
  cbn [InterleaveProofs.fits place_of pl_alloc pl_index]. split; [now apply HR|]. intros v.
  destruct (f s0 v) as [[s' v'] pn]. cbn [InterleaveProofs.fits pl_alloc pl_index]. split; [now apply HW|].
  destruct pn; cbn [InterleaveProofs.fits]; auto. apply IH. lia.
Qed.

Lemma reach_at : forall (h : heap) D b s q, reach h D b -> stride (bm_layout b) = Ok s ->
  at_entry (get_pointer b) (isizes s) (fst (dim (bm_layout b))) (snd (dim (bm_layout b))) q -> D q.
Proof.
  intros h D b s q Hr Es (i & j & z & Hi & Hj & -> & _ & _ & ->). destruct (Hr s Es) as [Hok HD].
  assert (Hp : in_range (dim (bm_layout b)) (i, j)) by (split; auto). rewrite (gemm_offset_told h b) by auto.
  specialize (HD _ Hp). unfold told_cell, cell_of_region in HD. cbn [get_pointer container_get_pointer p_off p_region].
  replace (Z.to_N (Z.of_N 0 + Z.of_N (told s (i, j)))) with (told s (i, j)) by lia. exact HD.
Qed.

Lemma efits_matmul : forall (h : heap) code kern (alpha : T) a b beta c (Q : bool -> unit -> Prop), implements code kern ->
  (forall q, W q -> R q) -> reach h R a -> reach h R b -> (reach h W c \/ covered W (MBase (T := T) c)) ->
  (forall d, Q d tt) -> fits n R W false (p_matmul code alpha a b beta c) Q.
Proof.
  intros h code kern alpha a b beta c Q impl WR Ha Hb Hc HQ. unfold p_matmul. apply fits_bind, fits_pure. intros g Hg.
  unfold matmul_args in Hg. cbv zeta in Hg. apply bind_ok in Hg. destruct Hg as (u & E & Hg). apply bind_ok in Hg. destruct Hg as (sa & Ea & Hg).
  apply bind_ok in Hg. destruct Hg as (sb & Eb & Hg). apply bind_ok in Hg. destruct Hg as (sc & Ec & Hg). injection Hg as <-.
  unfold assert_ in E. destruct (matmul_dims_ok _ _ _) eqn:Ed; [|discriminate]. apply matmul_dims in Ed. destruct Ed as (D1 & D2 & D3).
  assert (C : forall q, c_cells (mkArgs (mkShape (fst (dim (bm_layout a))) (snd (dim (bm_layout a))) (snd (dim (bm_layout b)))
      (as_isize (fst sa), as_isize (snd sa)) (as_isize (fst sb), as_isize (snd sb)) (as_isize (fst sc), as_isize (snd sc)))
        alpha (get_pointer a) (get_pointer b) beta (get_pointer c)) q -> W q).
  { intros q Hq. unfold c_cells in Hq. cbn [ga_c ga_shape g_sc g_m g_n] in Hq. destruct Hc as [Hc|Hc].
    - rewrite <- D2, <- D3 in Hq. exact (reach_at h W c sc q Hc Ec Hq).
    - apply at_entry_region in Hq. now apply (covered_base _ _ Hc). }
  eapply fits_only; [apply (proj1 (impl _))| | |].
  - intros q [Hq|[Hq|Hq]]; [..|apply WR, C; exact Hq].
    + exact (reach_at h R a sa q Ha Ea Hq).
    + unfold b_cells in Hq. cbn [ga_b ga_shape g_sb g_k g_n] in Hq. rewrite D1 in Hq. exact (reach_at h R b sb q Hb Eb Hq).
  - exact C.
  - intros d []. auto.
Qed.

Lemma efits_dot : forall (h : heap) code kern shape m a b (Q : bool -> base_matrix -> Prop), implements code kern ->
  (forall q, W q -> R q) -> reach h R a -> reach h R b -> (forall d c, Q d c) -> fits n R W false (p_dot code shape m a b) Q.
Proof.
  intros h code kern shape m a b Q impl WR Ha Hb HQ. unfold p_dot. cbv zeta. apply fits_bind.
  assert (A : forall c, new_base n c -> fits n R W false (pbind (p_matmul code sone a b szero c) (fun _ => Stop (Ok c))) Q).
  { intros c Hc. apply fits_bind. eapply efits_matmul; eauto.
    - right. intros q (Hq & _); apply fresh; unfold new_base, new_container in Hc; lia.
    - intros d. cbn [InterleaveProofs.fits]. auto. }
  destruct shape; [apply fits_zeros | apply fits_row_dim | apply fits_column_dim]; exact A.
Qed.

End Footprints.

Ltac fit_end := first [exact I | intros; exact I | intros; cbn [InterleaveProofs.fits]; exact I
  | intros ? ?; cbn [InterleaveProofs.fits]; exact I | intros ? [? ?]; cbn [InterleaveProofs.fits]; exact I].

Lemma efits_program : forall n (R W : nat * N -> Prop) code kern m (st : state T) (o : call T St) c, implements code kern ->
  (forall q, (n <= fst q)%nat -> R q /\ W q) -> (forall q, W q -> R q) -> sound m st -> careful m st o ->
  (forall x, In x (st_mats st) -> ecov R x) -> (forall x, In x (st_mats st) -> is_writable x = true -> ecov W x) ->
  program code m (st_mats st) o = Some c -> fits n R W false c (fun _ _ => True).
Proof.
  intros n R W code kern m st o c impl fresh WR HS (Hsafe & _ & Hcare) HR HW H.
  assert (SV : forall x w, lookup (mkState [] (st_mats st)) x = Some w -> valid (st_heap st) w).
  { intros x w E. exact (proj1 (lookup_sound m st x w HS E)). }
  assert (LV : forall x w, lookup (mkState [] (st_mats st)) x = Some w -> ecov R w).
  { intros x w E. eapply HR, nth_error_In, E. }
  assert (LW : forall x w, lookup (mkState [] (st_mats st)) x = Some w -> is_writable w = true -> ecov W w).
  { intros x w E. eapply HW, nth_error_In, E. }
  assert (SB : forall x b, lookup_base (mkState [] (st_mats st)) x = Some b -> base_valid (st_heap st) b).
  { intros x b E. apply lookup_base_inv in E. exact (SV _ _ E). }
  assert (LB : forall x b, lookup_base (mkState [] (st_mats st)) x = Some b -> ecov R (MBase (T := T) b)).
  { intros x b E. apply lookup_base_inv in E. eauto. }
  assert (LM : forall x b, lookup_mut (mkState [] (st_mats st)) x = Some b -> lookup_base (mkState [] (st_mats st)) x = Some b /\ ecov W (MBase (T := T) b)).
  { intros x b E. apply lookup_mut_inv in E. destruct E as [E C]. split; auto. apply lookup_base_inv in E. eauto. }
  assert (INJ : forall (x y : prog T (list (matrix T) * result T St)), Some x = Some y -> x = y) by congruence.
  destruct o; cbn [program] in H; unfold typed, when in H.
  all: cbn [careful safe_call] in Hsafe, Hcare; try contradiction.
  all: repeat (match type of H with
       | (match ?b with Some _ => _ | None => _ end) = _ => destruct b eqn:?; [|discriminate H]
       | (if ?b then _ else None) = _ => destruct b eqn:?; [|discriminate H]
       end).
  all: try (apply INJ in H; subst c).
  all: unfold ends_new, ends_item, ends_done, ends_loop; try apply fits_bind.
  all: try (apply fits_pure; fit_end).
  all: try exact I.
- apply fits_zeros; fit_end.
  - apply fits_zeros_fixed; fit_end.
  - apply fits_zeros_fixed_vector; fit_end.
  - apply fits_row; fit_end.
  - apply fits_column; fit_end.
  - apply fits_row_dim; fit_end.
  - apply fits_column_dim; fit_end.
  - apply fits_bind, fits_vector. intros c Hc. apply fits_pure. fit_end.
  - apply fits_bind, fits_array. intros c Hc. apply fits_pure. fit_end.
  - eapply efits_get; eauto; fit_end.
  - eapply efits_get1d; eauto; fit_end.
  - apply fits_bind, fits_pure. intros q Hq. apply fits_write; [eapply efits_mut; eauto|fit_end].
  - apply fits_bind, fits_pure. intros q Hq. apply fits_write; [eapply efits_mut1d; eauto|fit_end].
  - destruct (bm_layout b); try discriminate H. apply INJ in H. subst c. apply fits_bind, fits_pure. intros [[[b0 b1] b2] b3] _. exact I.
  - eapply efits_eval; eauto; fit_end.
  - destruct (LM _ _ Heqo) as [B1 B2]. eapply efits_for_each; eauto; fit_end.
  - destruct (LM _ _ Heqo) as [B1 B2]. eapply efits_for_each; eauto; fit_end.
  - destruct (LM _ _ Heqo1) as [B1 B2]. destruct Hcare as (C1 & C2 & C3).
    eapply (efits_matmul n R W (st_heap st)); eauto; try (left; apply true_reach; eauto; now apply (C3 _ B1)); try fit_end.
    + apply true_reach; eauto; now apply (C1 _ Heqo).
    + apply true_reach; eauto; now apply (C2 _ Heqo0).
  - destruct Hcare as (C1 & C2). eapply (efits_dot n R W fresh (st_heap st)); eauto; try fit_end.
    + apply true_reach; eauto; now apply (C1 _ Heqo).
    + apply true_reach; eauto; now apply (C2 _ Heqo0).
Qed.

(** ** Two memories that agree on the entries of a matrix *)

Lemma entries_same : forall (h h' : heap) x, valid h x -> (forall q, has_cell x q -> hget h' (fst q) (snd q) = hget h (fst q) (snd q)) ->
  forall m, (forall r c, stored (mat_layout x) (r, c) -> get_unchecked m h' x r c = get_unchecked m h x r c) /\
    (forall i, i < entry_count (mat_layout x) -> get1d_unchecked m h' x i = get1d_unchecked m h x i).
Proof.
  intros h h' x. induction x as [b | x IH | x IH | x IH s | x IHx y IHy l]; intros Hv He m;
    cbn [get_unchecked get1d_unchecked mat_layout valid has_cell] in *; auto.
  - assert (A : forall p, stored (bm_layout b) p ->
      region_read h' (c_region (bm_data b)) (cell (bm_layout b) p) = region_read h (c_region (bm_data b)) (cell (bm_layout b) p)).
    { intros p Hp. unfold region_read. destruct (_ <? _); auto.
      specialize (He (entry_cell b p)). unfold entry_cell, cell_of_region in He. cbn [fst snd] in He. rewrite He; auto. exists p. auto. }
    split.
    + intros r c Hp. unfold base_get_unchecked. rewrite (base_address m h) by auto. cbn [bind]. apply (A (r, c)). auto.
    + intros i Hi. unfold base_get1d_unchecked. rewrite (base_address_1d m h) by auto. cbn [bind]. apply A. now apply pos_spec.
  - destruct (IH Hv He m) as [I1 I2]. split; intros; [rewrite I1|rewrite I2]; auto.
  - destruct Hv as (Hx & Hy & Hd & Hk & ->).
    destruct (IHx Hx (fun q Hq => He q (or_introl Hq)) m) as [I1 I2], (IHy Hy (fun q Hq => He q (or_intror Hq)) m) as [I3 I4]. split.
    + intros r c Hp. apply (proj1 (index_layout_stored _ _)) in Hp. rewrite I1, I3; auto. now apply (same_kind_stored (mat_layout x)).
    + intros i Hi.
      assert (Ei : entry_count (index_layout (mat_layout x)) = entry_count (mat_layout x))
        by (apply same_kind_count; [apply index_layout_dim|apply index_layout_kind]).
      rewrite Ei in Hi. rewrite I2, I4; auto. rewrite <- (same_kind_count (mat_layout x)); auto.
Qed.

Lemma below_diagonal_anywhere : forall m (h h' : heap) x r c, valid h x -> in_range (dim (mat_layout x)) (r, c) ->
  ~ stored (mat_layout x) (r, c) -> get_unchecked m h' x r c = Panic.
Proof.
  intros m h h' x r c Hv Hr Hp. pose proof (proj1 (complete_unchecked m x h') r c) as E. rewrite (p_get_below m h) in E by auto.
  cbn [complete] in E. destruct (get_unchecked m h' x r c); auto; discriminate.
Qed.

Lemma eagree_same : forall (h h' : heap) x, valid h x ->
  (forall q, has_cell x q -> hget h' (fst q) (snd q) = hget h (fst q) (snd q)) -> same_matrix h x h' x.
Proof.
  intros h h' x Hv He. unfold same_matrix. splits; auto. intros m. destruct (entries_same h h' x Hv He m) as [E1 E2]. split.
  - intros r c. unfold get. destruct (assert_dimension_cases r c (dim (mat_layout x))) as [[Hr ->] | [Hr ->]]; cbn [bind]; auto.
    destruct (stored_dec (mat_layout x) (r, c)) as [Hp|Hp]; auto.
    now rewrite !(below_diagonal_anywhere m h) by auto.
  - intros i. unfold get1d. rewrite number_of_elements_ok by (eapply valid_small; eauto). cbn [bind].
    unfold assert_dimension1d, assert_. destruct (N.ltb_spec i (entry_count (mat_layout x))); cbn [bind]; auto.
Qed.

End Entries.

(** ** The machine *)

Section Pool.
Context {T : Type} {SC : HScalar T} {St : Type}.
Variables (code : gemm_args T -> prog T unit) (kern : kernel T) (m : mode).
Hypothesis impl : implements code kern.
Variables (p : pool T) (calls : nat -> list (call T St)).
Hypothesis ok : epool_ok m p.
Hypothesis plain : forall k, plain_history kern m (view p k) (calls k).
Hypothesis cautious : forall k, careful_history kern m (view p k) (calls k).

Definition emay_read (k : nat) (q : nat * N) : Prop := (length (p_heap p) <= fst q)%nat \/ eheld (p_tabs p k) q.
Definition emay_write (k : nat) (q : nat * N) : Prop :=
  (length (p_heap p) <= fst q)%nat \/ exists x, In x (p_tabs p k) /\ is_writable x = true /\ has_cell x q.

Lemma emay_fresh : forall k q, (length (p_heap p) <= fst q)%nat -> emay_read k q /\ emay_write k q.
Proof. intros k q H. split; now left. Qed.
Lemma emay_written : forall k q, emay_write k q -> emay_read k q.
Proof. intros k q [H|(x & X1 & X2 & X3)]; [now left|]. right. exists x. auto. Qed.
Lemma emay_exclusive : forall j k q, j <> k -> emay_write j q -> emay_read k q -> (length (p_heap p) <= fst q)%nat.
Proof.
  intros j k q H [C|(x & X1 & X2 & X3)] [D|(y & Y1 & Y2)]; auto. destruct (proj1 ok j k x y q); auto.
Qed.

(** What holds of the state of a thread alone before each of its calls. *)
Definition ealone (k : nat) (st : state T) : Prop :=
  sound m st /\ (length (p_heap p) <= length (st_heap st))%nat /\
  (forall x, In x (st_mats st) -> ecov (emay_read k) x) /\
  (forall x, In x (st_mats st) -> is_writable x = true -> ecov (emay_write k) x).

Lemma ealone_start : forall k, ealone k (view p k).
Proof.
  intros k. refine (conj (proj2 ok k) (conj (Nat.le_refl _) (conj _ _))).
  - intros x Hx q Hq. right. exists x. auto.
  - intros x Hx Wx q Hq. right. exists x. auto.
Qed.

Lemma ealone_step : forall k (o : call T St) (st : state T) st' r, ealone k st -> careful m st o -> step kern m st o = Ok (st', r) ->
  ealone k st'.
Proof.
  intros k o st st' r (S & Hl & HR & HW) C E. destruct (careful_step kern m st o S C) as (st1 & r1 & E1 & S1).
  assert (st1 = st') by congruence. subst st1.
  destruct (step_effect _ _ _ _ _ _ (sound_placed _ _ S) E) as (Ht & _ & _).
  assert (Ll : (length (st_heap st) <= length (st_heap st'))%nat) by (apply extends_length, Ht).
  destruct (step_enews _ _ _ _ _ _ S C E) as (new & En & Fn). rewrite Forall_forall in Fn.
  refine (conj S1 (conj _ (conj _ _))); [lia| |]; rewrite En; intros x Hx; apply in_app_or in Hx; destruct Hx as [Hx|Hx]; auto.
  - intros q Hq. destruct (Fn x Hx) as [F|[F _]].
    + left. specialize (F q Hq). lia.
    + destruct (F q Hq) as (w & W1 & W2). now apply (HR w W1).
  - intros Wx q Hq. destruct (Fn x Hx) as [F|[_ F]].
    + left. specialize (F q Hq). lia.
    + destruct (F Wx) as (w & W1 & W2 & W3). apply (HW w W1 W2). auto.
Qed.

Lemma entries_behave : forall k (os : list (call T St)) (st : state T), ealone k st -> plain_history kern m st os ->
  careful_history kern m st os -> behaves code kern m emay_read emay_write k st os.
Proof.
  intros k os. induction os as [|o os IH]; intros st A Hc Hk; cbn [behaves]; auto.
  destruct Hc as [Hc Hn], Hk as [Hk Hm]. pose proof A as (S & Hl & HR & HW).
  split; [apply step_program; auto; now apply (sound_placed m)|]. split.
  - intros c Ec. eapply efits_program; eauto.
    + intros q Hq. apply emay_fresh. lia.
    + apply emay_written.
  - intros st' r E. apply IH; eauto. eapply ealone_step; eauto.
Qed.

Lemma estart_behaves : forall k, behaves code kern m emay_read emay_write k (view p k) (calls k).
Proof. intros k. apply entries_behave; auto. apply ealone_start. Qed.

Lemma careful_run : forall k (os : list (call T St)) (st : state T), ealone k st -> careful_history kern m st os ->
  exists st' rs, run kern m st os = Ok (st', rs) /\ ealone k st'.
Proof.
  intros k os. induction os as [|o os IH]; intros st A H; cbn [run].
  - exists st, []. auto.
  - destruct H as [Hc Hn]. destruct (careful_step kern m st o (proj1 A) Hc) as (st1 & r1 & E1 & _).
    destruct (IH st1) as (st' & rs & E & A'); eauto; [eapply ealone_step; eauto|].
    exists st', (r1 :: rs). rewrite E1. cbn [bind]. rewrite E. auto.
Qed.

Lemma careful_history_app : forall (a b : list (call T St)) (st : state T), careful_history kern m st (a ++ b) -> careful_history kern m st a.
Proof. intros a. induction a as [|o a IH]; intros b st H; cbn [app careful_history] in *; auto. destruct H. split; eauto. Qed.

Ltac side := first [now apply emay_fresh | now apply emay_written | now apply emay_exclusive | now apply estart_behaves | now apply launch_inv, estart_behaves].

Lemma c61_ub : forall sched, exists M, mrun code m (launch p calls) sched = Ok M.
Proof.
  intros sched. destruct (mrun code m (launch p calls) sched) as [M| |] eqn:E; [eauto| |].
  - now apply mrun_not_panic in E.
  - apply (mrun_ub code kern m p calls emay_read emay_write) in E; [|side..].
    destruct E as (k & _ & E). destruct (careful_run k (calls k) (view p k)) as (st & rs & E' & _); auto; [apply ealone_start|congruence].
Qed.

Lemma c61_inv : forall sched M, mrun code m (launch p calls) sched = Ok M -> machine_inv code kern m p calls emay_read emay_write M.
Proof. intros sched M H. eapply mrun_inv; [..|exact H]; side. Qed.

Lemma c61_pool_races : forall sched M, mrun code m (launch p calls) sched = Ok M -> ~ race M.
Proof. intros sched M H. eapply no_race; [..|exact (c61_inv _ _ H)]; side. Qed.

Lemma c61_pool_finishes : forall sched M k, mrun code m (launch p calls) sched = Ok M ->
  exists n M', mrun code m M (repeat k n) = Ok M' /\ finished (m_thread M' k).
Proof.
  intros sched M k H. eapply finishes; [..|exact (c61_inv _ _ H)|]; try side.
  destruct (careful_run k (calls k) (view p k)) as (st & rs & E' & _); auto; [apply ealone_start|eauto].
Qed.

Lemma c61_pool_alone : forall sched M, mrun code m (launch p calls) sched = Ok M ->
  forall k, exists made st,
    calls k = made ++ current (m_thread M k) ++ t_left (m_thread M k) /\
    run kern m (view p k) made = Ok (st, t_done (m_thread M k)) /\
    t_table (m_thread M k) = st_mats st /\
    (idle (m_thread M k) -> forall x, In x (st_mats st) -> same_matrix (st_heap st) x (memory M k) x).
Proof.
  intros sched M H k. destruct (c61_inv _ _ H) as [_ I]. destruct (I k) as (made & st & I1 & I2 & I3 & I4 & I5 & I6).
  exists made, st. refine (conj I1 (conj I2 (conj (eq_sym I3) _))). intros Hi x Hx. unfold idle in Hi. rewrite Hi in I6.
  destruct (careful_run k made (view p k)) as (st' & rs & E' & A); [apply ealone_start| |].
  { eapply careful_history_app. rewrite <- I1. apply cautious. }
  assert (st' = st) by congruence. subst st'. destruct A as (S & _ & HR & _).
  apply eagree_same.
  - unfold sound in S. rewrite Forall_forall in S. exact (proj1 (S x Hx)).
  - intros q Hq. apply (proj2 I6). now apply (HR x Hx).
Qed.

End Pool.

Section Handed.
Context {T : Type} {SC : HScalar T} {St : Type}.

Lemma c61_safe : forall (code : gemm_args T -> prog T unit) kern m (acts : list (action T St)) bs rs who (calls : nat -> list (call T St)) sched,
  implements code kern -> well_behaved kern m binitial acts ->
  brun kern m binitial acts = Some (Ok (bs, rs)) -> lends_apart bs who ->
  (forall k, careful_history kern m (view (handed bs who) k) (calls k)) ->
  (forall k, plain_history kern m (view (handed bs who) k) (calls k)) ->
  exists M, mrun code m (launch (handed bs who) calls) sched = Ok M /\ ~ race M.
Proof.
  intros code kern m acts bs rs who calls sched impl W H L C P. pose proof (handed_ok kern m acts bs rs who W H L) as Hp.
  destruct (c61_ub code kern m impl (handed bs who) calls Hp P C sched) as [M E]. exists M. split; auto.
  exact (c61_pool_races code kern m impl (handed bs who) calls Hp P C sched M E).
Qed.

Lemma c61_finishes : forall (code : gemm_args T -> prog T unit) kern m (acts : list (action T St)) bs rs who (calls : nat -> list (call T St)) sched M k,
  implements code kern -> well_behaved kern m binitial acts ->
  brun kern m binitial acts = Some (Ok (bs, rs)) -> lends_apart bs who ->
  (forall k, careful_history kern m (view (handed bs who) k) (calls k)) ->
  (forall k, plain_history kern m (view (handed bs who) k) (calls k)) ->
  mrun code m (launch (handed bs who) calls) sched = Ok M ->
  exists n M', mrun code m M (repeat k n) = Ok M' /\ finished (m_thread M' k).
Proof.
  intros code kern m acts bs rs who calls sched M k impl W H L C P E. pose proof (handed_ok kern m acts bs rs who W H L) as Hp.
  exact (c61_pool_finishes code kern m impl (handed bs who) calls Hp P C sched M k E).
Qed.

Lemma c61_alone : forall (code : gemm_args T -> prog T unit) kern m (acts : list (action T St)) bs rs who (calls : nat -> list (call T St)) sched M,
  implements code kern -> well_behaved kern m binitial acts ->
  brun kern m binitial acts = Some (Ok (bs, rs)) -> lends_apart bs who ->
  (forall k, careful_history kern m (view (handed bs who) k) (calls k)) ->
  (forall k, plain_history kern m (view (handed bs who) k) (calls k)) ->
  mrun code m (launch (handed bs who) calls) sched = Ok M ->
  forall k, exists made st,
    calls k = made ++ current (m_thread M k) ++ t_left (m_thread M k) /\
    run kern m (view (handed bs who) k) made = Ok (st, t_done (m_thread M k)) /\
    t_table (m_thread M k) = st_mats st /\
    (idle (m_thread M k) -> forall x, In x (st_mats st) -> same_matrix (st_heap st) x (memory M k) x).
Proof.
  intros code kern m acts bs rs who calls sched M impl W H L C P E. pose proof (handed_ok kern m acts bs rs who W H L) as Hp.
  exact (c61_pool_alone code kern m impl (handed bs who) calls Hp P C sched M E).
Qed.

Lemma c61_calls : forall (code : gemm_args T -> prog T unit) kern m (acts : list (action T St)) bs rs who (calls : nat -> list (call T St)) sched M
    (whole : list (nat * call T St)),
  implements code kern -> well_behaved kern m binitial acts ->
  brun kern m binitial acts = Some (Ok (bs, rs)) -> lends_apart bs who ->
  (forall k, careful_history kern m (view (handed bs who) k) (calls k)) ->
  (forall k, plain_history kern m (view (handed bs who) k) (calls k)) ->
  mrun code m (launch (handed bs who) calls) sched = Ok M -> (forall k, finished (m_thread M k)) ->
  (forall k, of_thread k whole = calls k) ->
  exists p' tr, prun kern m (handed bs who) whole = Ok (p', tr) /\
    forall k, t_done (m_thread M k) = of_thread k tr /\
      Forall2 (fun x y => same_matrix (p_heap p') x (memory M k) y) (p_tabs p' k) (t_table (m_thread M k)).
Proof.
  intros code kern m acts bs rs who calls sched M whole impl W H L C P E F O.
  assert (C' : forall k, careful_history kern m (view (handed bs who) k) (of_thread k whole)) by (intros k; rewrite O; auto).
  destruct (c56 kern m acts bs rs who whole W H L C') as (p' & tr & E1 & _ & X). exists p', tr. split; auto. intros k.
  destruct (c61_alone code kern m acts bs rs who calls sched M impl W H L C P E k) as (made & st & M1 & M2 & M3 & M4).
  destruct (F k) as [F1 F2]. unfold idle in F1. assert (Cur : current (m_thread M k) = []) by (unfold current; now rewrite F1).
  rewrite Cur, F2, app_nil_r in M1. subst made. destruct (X k) as (st' & R' & S'). rewrite O, M2 in R'. injection R' as <- <-.
  split; auto. rewrite M3. eapply same_both; [exact S'|]. specialize (M4 F1). clear - M4.
  induction (st_mats st) as [|x xs IH]; constructor; [apply M4; now left|]. apply IH. intros y Hy. apply M4. now right.
Qed.

End Handed.
