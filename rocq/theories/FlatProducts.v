(** * Products of safe histories without [split_in_four_mut], for C70. *)

From Coq Require Import Lia ZifyBool ZifyNat ZifyN.
From Verif Require Import Machine Layouts Memory Matrix MatMul Spec MatrixSpec ExprSpec ProductSpec.
From Verif Require Import Program HistorySpec Borrow Dealloc Threads Interleave Flat.
From Verif Require Import MachineFacts HistoryProofs HistorySafety BorrowProofs AliasProofs DeallocProofs InterleaveOrders.
Local Open Scope N_scope.

Section Products.
Context {T : Type} {SC : HScalar T} {St : Type}.
Variable kern : kernel T.

(** Safe calls make no vectors with strides. *)
Definition dense_vector (l : layout) : Prop :=
  match l with ArbitraryStrideRowVector _ _ | ArbitraryStrideColumnVector _ _ => False | _ => True end.
Definition dense_vectors (ms : list (matrix T)) : Prop := forall b, In (MBase b) ms -> dense_vector (bm_layout b).

Lemma kind_dense : forall k d l, from_dimension k d = Ok l -> dense_vector l.
Proof.
  intros [] d l H; cbn [from_dimension] in H; try (injection H as <-; exact I);
    apply bind_ok in H; destruct H as (? & _ & H); injection H as <-; exact I.
Qed.
Lemma data_dense : forall m rs cs c l b, from_data m rs cs c l = Ok b -> dense_vector l -> dense_vector (bm_layout b).
Proof. intros m rs cs c l b H D. apply from_data_data in H. now subst b. Qed.
Lemma unstrided_dense : forall l, has_strides l = false -> dense_vector l.
Proof. intros [] H; try exact I; discriminate H. Qed.

Ltac open H := apply bind_ok in H; let x := fresh "x" in let E := fresh "E" in destruct H as (x & E & H).

Lemma zeros_dense : forall m (h : heap) k r c h' b, zeros_from_dim m h k r c = Ok (h', b) -> dense_vector (bm_layout b).
Proof.
  intros m h k r c h' b H. unfold zeros_from_dim in H. open H. open H. open H. destruct x1 as [h1 c1]. open H. open H.
  injection H as <- <-. eapply data_dense; eauto. eapply kind_dense; eauto.
Qed.
Lemma row_dense : forall m (h : heap) n h' b, row_vector_zeros_from_length m h n = Ok (h', b) -> dense_vector (bm_layout b).
Proof.
  intros m h n h' b H. unfold row_vector_zeros_from_length in H. open H. destruct x as [h1 c1]. open H. injection H as <- <-.
  eapply data_dense; eauto. exact I.
Qed.
Lemma column_dense : forall m (h : heap) n h' b, column_vector_zeros_from_length m h n = Ok (h', b) -> dense_vector (bm_layout b).
Proof.
  intros m h n h' b H. unfold column_vector_zeros_from_length in H. open H. destruct x as [h1 c1]. open H. injection H as <- <-.
  eapply data_dense; eauto. exact I.
Qed.
Lemma row_dim_dense : forall m (h : heap) r n h' b, row_vector_zeros_from_dim m h r n = Ok (h', b) -> dense_vector (bm_layout b).
Proof.
  intros m h r n h' b H. unfold row_vector_zeros_from_dim in H. open H. open H. destruct x0 as [h1 c1]. open H. injection H as <- <-.
  eapply data_dense; eauto. exact I.
Qed.
Lemma column_dim_dense : forall m (h : heap) r n h' b, column_vector_zeros_from_dim m h r n = Ok (h', b) -> dense_vector (bm_layout b).
Proof.
  intros m h r n h' b H. unfold column_vector_zeros_from_dim in H. open H. open H. destruct x0 as [h1 c1]. open H. injection H as <- <-.
  eapply data_dense; eauto. exact I.
Qed.
Lemma block_dense : forall m mut b tl d v, block m mut b tl d = Ok v -> dense_vector (bm_layout v).
Proof.
  intros m mut b tl d v H. unfold block in H. destruct (block_order (bm_layout b)) as [o|]; [|discriminate].
  do 6 open H. unfold from_pointer_strided in H. do 5 open H.
  apply from_data_data in H. subst v. cbn [bm_layout]. destruct o; exact I.
Qed.

Lemma step_dense : forall m st (o : call T St) st' r, safe_call o -> no_split (Do o) -> dense_vectors (st_mats st) ->
  step kern m st o = Ok (st', r) -> dense_vectors (st_mats st').
Proof.
  intros m st o st' r Hs Hn D H.
  assert (NEW : forall v, st_mats st' = st_mats st ++ [MBase v] -> dense_vector (bm_layout v) -> dense_vectors (st_mats st')).
  { intros v E V b Hb. rewrite E in Hb. apply in_app_or in Hb. destruct Hb as [Hb|[Hb|[]]]; auto. injection Hb as <-. exact V. }
  assert (P : no_pointers (Do o)) by (destruct o; try exact I; destruct Hs).
  pose proof (step_kinds kern m st o st' r P H) as K. destruct K as [r Hr E | nb E Ha Hl Ho Hb | v E Eh Hb Hd | x at_ b b0 b1 b2 b3 -> _ _ _ _ _].
  - now rewrite E.
  - apply (NEW nb E). unfold step in H. destruct (exec kern m st o) as [[[st1 r1]| |]|] eqn:X; try discriminate H. injection H as -> ->.
    assert (L : forall f : outcome (heap * base_matrix), new1 st f = Ok (st', RNew (T := T) (St := St)) -> exists h', f = Ok (h', nb)).
    { intros f F. unfold new1 in F. open F. destruct x as [h' b']. injection F as <-. cbn [st_mats] in E. apply app_inv_head in E. injection E as <-. eauto. }
    assert (LV : forall f, new_view st f = Ok (st', RNew (T := T) (St := St)) -> False).
    { intros f F. unfold new_view in F. open F. injection F as <-. cbn [st_heap] in Hl. lia. }
    assert (LE : forall f, new_expr st f = Ok (st', RNew (T := T) (St := St)) -> False).
    { intros f F. unfold new_expr in F. open F. injection F as <-. cbn [st_heap] in Hl. lia. }
    assert (LI : forall f, item st f = Ok (st', RNew (T := T) (St := St)) -> False) by (intros f F; unfold item in F; open F; discriminate F).
    assert (LD : forall f, done st f = Ok (st', RNew (T := T) (St := St)) -> False) by (intros f F; unfold done in F; open F; discriminate F).
    assert (LL : forall f, looped st f = Ok (st', RNew (T := T) (St := St)) -> False).
    { intros f F. unfold looped in F. open F. destruct x as [[? ?] ?]. discriminate F. }
    destruct o; cbn [exec] in X; unfold typed, when in X;
      repeat match type of X with
        | match ?x with _ => _ end = Some _ => destruct x eqn:?; try discriminate X
        end; apply some_inj in X;
      try (exfalso; first [now apply LV in X | now apply LE in X | now apply LI in X | now apply LD in X | now apply LL in X]);
      try discriminate X;
      try (apply L in X; destruct X as [h' X]); try (now destruct Hn).
    all: try (solve [eauto using zeros_dense, row_dense, column_dense, row_dim_dense, column_dim_dense]).
    + unfold zeros_fixed in X. destruct (array_container_new _ _) as [h1 c1]. open X. open X. injection X as <- <-.
      eapply data_dense; eauto. eapply kind_dense; eauto.
    + unfold zeros_fixed_vector in X. destruct (array_container_new _ _) as [h1 c1]. destruct (from_length k n) as [l|] eqn:F; [|discriminate X].
      open X. injection X as <- <-. eapply data_dense; eauto. destruct k; cbn in F; try discriminate F; injection F as <-; exact I.
    + open X. destruct x as [h1 c1]. open X. injection X as <- <-. eapply data_dense; eauto. apply unstrided_dense. exact Hs.
    + destruct (array_container_new _ _) as [h1 c1]. open X. injection X as <- <-. eapply data_dense; eauto. apply unstrided_dense. exact Hs.
    + unfold eval in X. open X. destruct x0 as [h1 b1]. open X. open X. injection X as <- <-. eapply zeros_dense; eauto.
    + destruct shape; cbn [dot] in X; unfold dot_mat_mat, dot_row_mat, dot_mat_col in X; open X; destruct x as [hh bb]; open X; injection X as <- <-;
        eauto using zeros_dense, row_dense, column_dense, row_dim_dense, column_dim_dense.
  - destruct Hd; try (intros b' Hb'; rewrite E in Hb'; apply in_app_or in Hb'; destruct Hb' as [Hb'|[Hb'|[]]]; [now apply D|discriminate Hb']).
    + apply (NEW _ E). eapply data_dense; eauto. apply unstrided_dense. exact Hs.
    + apply (NEW _ E). eapply block_dense; eauto.
  - destruct Hn.
Qed.

(** A product without entries. *)
Lemma empty_plain : forall alpha a b beta c (g : gemm_args T), matmul_args alpha a b beta c = Ok g ->
  fst (dim (bm_layout c)) = 0 \/ snd (dim (bm_layout c)) = 0 -> plain_args g.
Proof.
  intros alpha a b beta c g H Z. unfold matmul_args in H. cbv zeta in H. open H. open H. open H. open H. injection H as <-.
  unfold assert_ in E. destruct (matmul_dims_ok _ _ _) eqn:Ed; [|discriminate].
  unfold matmul_dims_ok in Ed. rewrite !Bool.andb_true_iff, !N.eqb_eq in Ed. destruct Ed as ((E3 & E4) & E5).
  unfold plain_args, c_cells, at_entry, c_in_range. cbn [ga_shape ga_a ga_b ga_c g_m g_n g_k g_sa g_sb g_sc]. split.
  - intros q (i & j & z & Hi & Hj & _). lia.
  - intros _ i j i' j' Hi Hj. lia.
Qed.

Lemma valid_dims : forall (h : list (list T)) c, base_valid h c -> dense_vector (bm_layout c) ->
  (fst (dim (bm_layout c)) = 0 \/ snd (dim (bm_layout c)) = 0) \/
  (fst (dim (bm_layout c)) < usize_mod /\ snd (dim (bm_layout c)) < usize_mod).
Proof.
  intros h c ((_ & Lr) & S & C) D. assert (X : isize_max < usize_mod) by reflexivity. assert (X1 : 1 < usize_mod) by reflexivity.
  destruct (bm_layout c) as [d|d|n|n|d s|d s|n s|n s|n] eqn:E; cbn [dim fst snd small] in *; try contradiction.
  1, 2, 5, 6: destruct (N.eq_dec (fst d) 0); [left; now left|]; destruct (N.eq_dec (snd d) 0); [left; now right|]; right; nia.
  - destruct (N.eq_dec n 0); [left; now right|]. right. specialize (C (0, n - 1)). unfold cell, stored, in_range in C. cbn [true_stride dim fst snd upper_triangular_like] in C.
    assert (0 < 1 /\ n - 1 < n) by lia. assert (0 * n + (n - 1) * 1 < r_len (c_region (bm_data c)) \/ (n - 1) < r_len (c_region (bm_data c))) by (left; apply C; split; [assumption|discriminate]). lia.
  - destruct (N.eq_dec n 0); [left; now left|]. right. specialize (C (n - 1, 0)). unfold cell, stored, in_range in C. cbn [true_stride dim fst snd upper_triangular_like] in C.
    assert (n - 1 < n /\ 0 < 1) by lia. specialize (C ltac:(split; [assumption|discriminate])). lia.
  - destruct (N.eq_dec n 0); [left; now left|]. right. nia.
Qed.

Lemma call_plain : forall m fs (bs : bstate T) (o : call T St) bt, finv fs bs -> binv bs -> sound m (b_state bs) ->
  dense_vectors (st_mats (b_state bs)) -> admit_uses (b_slots (f_state fs)) (uses o) = Some bt -> plain_call (b_state (f_state fs)) o.
Proof.
  intros m fs bs o bt F I S D Ha. destruct o; cbn [plain_call]; auto. intros x y z g La Lb Lc G.
  rewrite (v_slots _ _ F) in Ha. pose proof (r_mats _ _ (v_rel _ _ F)) as M.
  assert (LB : forall u, lookup_base (b_state (f_state fs)) u = lookup_base (b_state bs) u) by (intros u; unfold lookup_base, lookup; now rewrite M).
  assert (LM : forall u, lookup_mut (b_state (f_state fs)) u = lookup_mut (b_state bs) u) by (intros u; unfold lookup_mut; now rewrite LB).
  rewrite LB in La, Lb. rewrite LM in Lc. apply lookup_base_inv in La, Lb. apply lookup_mut_writable in Lc. destruct Lc as [Lc Wc].
  cbn [uses] in Ha. pose proof (admit_no_conflict _ _ _ Ha) as Hn.
  set (us := [(a, Shared); (b, Shared); (c, Exclusive)]) in *.
  assert (Ix : In (a, Shared) us) by (left; reflexivity).
  assert (Iy : In (b, Shared) us) by (right; left; reflexivity).
  assert (Iz : In (c, Exclusive) us) by (right; right; left; reflexivity).
  assert (Dx : a <> c) by (eapply no_conflict_exclusive; eauto; discriminate).
  assert (Dy : b <> c) by (eapply no_conflict_exclusive; eauto; discriminate).
  assert (NO : forall u d q, In (u, Shared) us -> u <> c -> lookup (b_state bs) u = Some (MBase d) -> occupies (@MBase T z) q -> ~ occupies (@MBase T d) q).
  { intros u d q Hu Hd Lu Oz Od. destruct I as [I _].
    apply (operands_apart region_foot (st_mats (b_state bs)) (b_slots bs) us bt u c q); auto.
    - exists (MBase z). auto.
    - exists (MBase d). split; auto.
    - exists (MBase z). split; auto. }
  assert (V : base_valid (st_heap (b_state bs)) z) by exact (sound_valid _ _ _ _ S Lc).
  assert (DV : dense_vector (bm_layout z)) by (apply D; eapply nth_error_In; exact Lc).
  destruct (valid_dims _ _ V DV) as [E|[E1 E2]]; [eapply empty_plain; eauto|].
  eapply c60_plain; [exact G|intros q Hq; split; [eapply (NO a)|eapply (NO b)]; eauto|exact E1|exact E2|]. destruct (bm_layout z); auto; destruct DV.
Qed.

Lemma safe_plain : forall m (acts : list (faction T St)) fs bs, finv fs bs -> binv bs -> sound m (b_state bs) ->
  dense_vectors (st_mats (b_state bs)) -> Forall safe_call (calls acts) -> Forall no_split (kept acts) ->
  m = Checked \/ no_wrap_history kern m (b_state bs) (calls acts) -> plain_products kern m fs acts.
Proof.
  intros m acts. induction acts as [|fa acts IH]; intros fs bs F I S D Hs Hn Hm; cbn [plain_products]; auto. split.
  { destruct fa as [[o|x]|x]; auto. intros bt Ha. eapply call_plain; eauto. }
  intros fs' r E. destruct fa as [[o|x]|x].
  - change (kept (Act (Do o) :: acts)) with (Do o :: kept acts) in Hn. change (calls (Act (Do o) :: acts)) with (o :: calls acts) in *.
    inversion Hs as [|? ? Ho Hs']; subst. inversion Hn as [|? ? No Hn']; subst.
    assert (P : no_pointers (Do o)) by now apply safe_no_pointers.
    pose proof (sim_act kern m fs bs (Do o) F P) as X. rewrite E in X.
    destruct (bstep kern m bs (Do o)) as [[[bs1 r1]| |]|] eqn:B; cbn in X; try contradiction. destruct X as [F1 _]. cbn [fst] in F1.
    assert (Hm1 : m = Checked \/ no_wrap_call (b_state bs) o) by (destruct Hm as [->|[Hm _]]; auto).
    destruct (step_safe kern m (b_state bs) o S (safe_within _ _ Ho) Hm1) as (st' & r' & E1 & S1).
    pose proof (plain_inv_step kern m bs (Do o) bs1 r1 I (conj P No) B) as I1.
    cbn [bstep] in B. destruct (admit_uses (b_slots bs) (uses o)); [|discriminate]. rewrite E1 in B. cbn [bind] in B. injection B as <- <-.
    eapply IH; eauto; cbn [b_state] in *.
    + eapply step_dense; eauto.
    + destruct Hm as [->|[_ Hm]]; auto. right. exact (Hm _ _ E1).
  - change (kept (Act (Drop x) :: acts)) with (@Drop T St x :: kept acts) in Hn. change (calls (Act (Drop x) :: acts)) with (calls acts) in *.
    inversion Hn as [|? ? No Hn']; subst. assert (P : no_pointers (@Drop T St x)) by exact Logic.I.
    pose proof (sim_act kern m fs bs (Drop x) F P) as X. rewrite E in X.
    destruct (bstep kern m bs (Drop x)) as [[[bs1 r1]| |]|] eqn:B; cbn in X; try contradiction. destruct X as [F1 _]. cbn [fst] in F1.
    pose proof (plain_inv_step kern m bs (Drop x) bs1 r1 I (conj P No) B) as I1.
    cbn [bstep] in B. destruct (admit_uses (b_slots bs) [(x, Moved)]); [|discriminate]. injection B as <- <-. eapply IH; eauto.
  - change (kept (ScopeEnd x :: acts)) with (kept acts) in *. change (calls (ScopeEnd x :: acts)) with (calls acts) in *. cbn [fstep] in E.
    destruct (Nat.ltb x (length (st_mats (b_state (f_state fs)))) && negb (is_live (b_slots (f_state fs)) x) && negb (mem (f_gone fs) x))%bool eqn:C; [|discriminate].
    apply Bool.andb_true_iff in C. destruct C as [C C3]. apply Bool.andb_true_iff in C. destruct C as [C1 C2].
    apply Nat.ltb_lt in C1. apply Bool.negb_true_iff in C2, C3. apply mem_out in C3.
    rewrite (v_slots _ _ F) in C2. rewrite (r_mats _ _ (v_rel _ _ F)) in C1.
    destruct (nth_error (st_mats (b_state bs)) x) as [v|] eqn:Ev; [|apply nth_error_None in Ev; lia].
    destruct (sim_scope fs bs x v F Ev C2 C3) as (fs1 & E1 & F1 & _). rewrite E1 in E. cbn [bind] in E. injection E as <- _. eapply IH; eauto.
Qed.

Lemma c70_products : forall m (acts : list (faction T St)), Forall safe_call (calls acts) -> Forall no_split (kept acts) ->
  m = Checked \/ no_wrap_history kern m (@initial T) (calls acts) -> plain_products kern m finitial acts.
Proof.
  intros m acts Hs Hn Hm. apply (safe_plain m acts finitial binitial); auto.
  - apply finitial_finv.
  - apply binitial_binv.
  - apply initial_sound.
  - intros b [].
Qed.
End Products.
