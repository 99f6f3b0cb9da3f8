(** * Proofs about histories: C38, C39, C40. *)

From Coq Require Import ZifyBool ZifyNat ZifyN.
From Verif Require Import Machine MachineFacts Layouts Memory Matrix MatMul Spec MatrixSpec ExprSpec ProductSpec.
From Verif Require Import LayoutFacts MemoryFacts AccessFacts AccessProofs ConstructorProofs BlockProofs.
From Verif Require Import ExprProofs ProductProofs Program HistorySpec.
Local Open Scope N_scope.

Section Effects.
Context {T : Type} {SC : HScalar T} {St : Type}.
Notation heap := (@heap T).

(** [h'] has the allocations of [h]; cells of old allocations outside of [P] are
    unchanged. *)
Definition touches (P : nat * N -> Prop) (h h' : heap) : Prop :=
  extends h h' /\ forall a i, (a < length h)%nat -> ~ P (a, i) -> hget h' a i = hget h a i.

Lemma touches_refl : forall P h, touches P h h.
Proof. intros P h. split; auto using extends_refl. Qed.

Lemma touches_trans : forall P h1 h2 h3, touches P h1 h2 -> touches P h2 h3 -> touches P h1 h3.
Proof.
  intros P h1 h2 h3 [E1 H1] [E2 H2]. split; [eauto using extends_trans|].
  intros a i Ha Hp. pose proof (extends_length _ _ E1). rewrite H2, H1; auto. lia.
Qed.

Lemma touches_weaken : forall (P Q : nat * N -> Prop) h h',
  (forall a i, (a < length h)%nat -> P (a, i) -> Q (a, i)) -> touches P h h' -> touches Q h h'.
Proof. intros P Q h h' H [E Hp]. split; [exact E|]. intros a i Ha Hq. apply Hp; [exact Ha|]. intros HP. apply Hq. now apply H. Qed.

Lemma only_allocates_touches : forall P h h', only_allocates h h' -> touches P h h'.
Proof.
  intros P h h' H. split; [now apply only_allocates_extends|].
  intros a i Ha _. now apply only_allocates_hget.
Qed.

Definition in_region (r : region) (q : nat * N) : Prop :=
  fst q = r_alloc r /\ r_lo r <= snd q /\ snd q < r_lo r + r_len r.

Lemma region_place_in : forall r i p, region_place r i = Ok p -> in_region r (pl_alloc p, pl_index p).
Proof.
  intros r i p H. unfold region_place in H. destruct (N.ltb_spec i (r_len r)); [|discriminate].
  injection H as <-. unfold in_region. cbn. lia.
Qed.

Lemma place_write_touches : forall (h : heap) p v h', place_write h p v = Ok h' ->
  touches (fun q => q = (pl_alloc p, pl_index p)) h h'.
Proof.
  intros h p v h' H. unfold place_write in H. destruct (hget h (pl_alloc p) (pl_index p)); [|discriminate].
  injection H as <-. split; [apply extends_hset|]. intros a i _ Hq. apply hget_hset_other. congruence.
Qed.

Lemma write_in_region : forall (h : heap) r i p v h', region_place r i = Ok p ->
  place_write h p v = Ok h' -> touches (in_region r) h h'.
Proof.
  intros h r i p v h' Hp Hw. apply region_place_in in Hp. apply place_write_touches in Hw.
  eapply touches_weaken; [|exact Hw]. intros a j _ E. cbv beta in E. now rewrite E.
Qed.

Lemma loop_touches : forall P (f : N -> heap -> outcome heap) n h h',
  (forall k h h', f k h = Ok h' -> touches P h h') -> for_range n f h = Ok h' -> touches P h h'.
Proof.
  intros P f n h h' Hf. unfold for_range. generalize 0 as i. intros i. revert i h.
  induction (N.to_nat n) as [|k IH]; intros i h H; cbn [loop] in H.
  - injection H as <-. apply touches_refl.
  - apply bind_ok in H. destruct H as (h1 & E & H). eapply touches_trans; eauto.
Qed.

(** Sources of places. *)
Lemma base_mut_in : forall m b r c p, base_get_unchecked_mut m b r c = Ok p ->
  in_region (c_region (bm_data b)) (pl_alloc p, pl_index p).
Proof.
  intros m b r c p H. unfold base_get_unchecked_mut in H. apply bind_ok in H.
  destruct H as (i & _ & H). eapply region_place_in. exact H.
Qed.

Lemma base_mut1d_in : forall m b i p, base_get1d_unchecked_mut m b i = Ok p ->
  in_region (c_region (bm_data b)) (pl_alloc p, pl_index p).
Proof.
  intros m b i p H. unfold base_get1d_unchecked_mut in H. apply bind_ok in H.
  destruct H as (j & _ & H). eapply region_place_in. exact H.
Qed.

Lemma mut_in : forall m (x : matrix T) r c p, get_unchecked_mut m x r c = Ok p ->
  occupies x (pl_alloc p, pl_index p).
Proof.
  intros m x r c p. induction x; cbn [get_unchecked_mut occupies]; intros H; try discriminate; auto.
  destruct (container_is_mut _); [|discriminate]. now apply base_mut_in in H.
Qed.

Lemma mut1d_in : forall m (x : matrix T) i p, get1d_unchecked_mut m x i = Ok p ->
  occupies x (pl_alloc p, pl_index p).
Proof.
  intros m x i p. induction x; cbn [get1d_unchecked_mut occupies]; intros H; try discriminate; auto.
  destruct (container_is_mut _); [|discriminate]. now apply base_mut1d_in in H.
Qed.

Lemma write_touches : forall (x : matrix T) (h : heap) p v h', occupies x (pl_alloc p, pl_index p) ->
  place_write h p v = Ok h' -> touches (occupies x) h h'.
Proof.
  intros x h p v h' Hp Hw. apply place_write_touches in Hw.
  eapply touches_weaken; [|exact Hw]. intros a j _ E. cbv beta in E. now rewrite E.
Qed.

Lemma set_touches : forall m (h : heap) x r c v h', set m h x r c v = Ok h' -> touches (occupies x) h h'.
Proof.
  intros m h x r c v h' H. unfold set, get_mut in H. inv_ok. eapply write_touches; eauto. eapply mut_in; eauto.
Qed.

Lemma set1d_touches : forall m (h : heap) x i v h', set1d m h x i v = Ok h' -> touches (occupies x) h h'.
Proof.
  intros m h x i v h' H. unfold set1d, get1d_mut in H. inv_ok. eapply write_touches; eauto. eapply mut1d_in; eauto.
Qed.

Lemma for_each_loop_touches : forall (S : Type) m b (f : closure S) n i (h : heap) s h' s' pn,
  for_each_loop m b f n i (h, s) = Ok (h', s', pn) -> touches (in_region (c_region (bm_data b))) h h'.
Proof.
  intros S m b f n. induction n as [|n IH]; intros i h s h' s' pn H; cbn [for_each_loop] in H.
  - injection H as <- <- <-. apply touches_refl.
  - apply bind_ok in H. destruct H as (((h1, s1), p1) & E & H). unfold call_closure in E.
    destruct (base_get1d_unchecked_mut m b i) as [p| |] eqn:Ep.
    + apply bind_ok in E. destruct E as (v & Ev & E). destruct (f s v) as [[s2 v2] p2].
      apply bind_ok in E. destruct E as (h2 & Ew & E). injection E as <- <- <-.
      assert (W : touches (in_region (c_region (bm_data b))) h h2).
      { apply base_mut1d_in in Ep. apply place_write_touches in Ew.
        eapply touches_weaken; [|exact Ew]. intros a j _ Eq. cbv beta in Eq. now rewrite Eq. }
      destruct p2; [injection H as <- <- <-; exact W|]. eapply touches_trans; eauto.
    + injection E as <- <- <-. injection H as <- <- <-. apply touches_refl.
    + discriminate.
Qed.

Lemma for_each_touches : forall (S : Type) m (h : heap) b (f : closure S) s h' s' pn,
  for_each m h b f s = Ok (h', s', pn) -> touches (in_region (c_region (bm_data b))) h h'.
Proof.
  intros S m h b f s h' s' pn H. unfold for_each in H. apply bind_ok in H. destruct H as (n & _ & H).
  eapply for_each_loop_touches; eauto.
Qed.

Lemma ptr_write_touches : forall (h : heap) p d v h', ptr_write h p d v = Ok h' ->
  touches (in_region (p_region p)) h h'.
Proof.
  intros h p d v h' H. unfold ptr_write in H. destruct (_ <=? _)%Z; [|discriminate].
  apply bind_ok in H. destruct H as (pl & E & H). eapply write_in_region; eauto.
Qed.

Lemma matmul_touches : forall kern (h : heap) alpha a b beta c h',
  matmul kern h alpha a b beta c = Ok h' -> touches (in_region (c_region (bm_data c))) h h'.
Proof.
  intros kern h alpha a b beta c h' H. unfold matmul, gemm in H.
  apply bind_ok in H. destruct H as (u & _ & H).
  apply bind_ok in H. destruct H as (sa & _ & H). apply bind_ok in H. destruct H as (sb & _ & H).
  apply bind_ok in H. destruct H as (sc & _ & H).
  eapply loop_touches; [|exact H]. intros k h1 h2 H1. cbv beta in H1.
  eapply loop_touches; [|exact H1]. intros j h3 h4 H2. cbv beta in H2. unfold gemm_entry in H2.
  apply bind_ok in H2. destruct H2 as (ps & _ & H2). apply bind_ok in H2. destruct H2 as (old & _ & H2).
  apply ptr_write_touches in H2. exact H2.
Qed.

(** New containers. *)
Lemma vector_new_inv : forall (h : heap) n h' c, vector_container_new h n = Ok (h', c) ->
  h' = h ++ [repeat szero (N.to_nat n)] /\ c = mkContainer VectorContainer (mkRegion (length h) 0 n) /\
  n * Npos ssize <= isize_max.
Proof.
  intros h n h' c H. unfold vector_container_new in H. destruct (N.leb_spec (n * Npos ssize) isize_max); [|discriminate].
  unfold alloc in H. injection H as <- <-. splits; auto.
  rewrite repeat_length, N2Nat.id. reflexivity.
Qed.

Lemma from_data_data : forall m rs cs c l b, from_data m rs cs c l = Ok b -> b = mkBase c l rs cs.
Proof. intros m rs cs c l b H. now apply from_data_inv in H. Qed.

(** [h'] is [h] plus one allocation, the one of [b]. *)
Definition owned_container (b : base_matrix) : Prop :=
  match c_kind (bm_data b) with VectorContainer | ArrayContainer => True | _ => False end.

Definition appended (h h' : heap) (b : base_matrix) : Prop :=
  exists l, h' = h ++ [l] /\ allocation b = length h /\ owned_container b.

Lemma zeros_appended : forall m (h : heap) k rows cols h' b,
  zeros_from_dim m h k rows cols = Ok (h', b) -> appended h h' b.
Proof.
  intros m h k rows cols h' b H. unfold zeros_from_dim in H.
  apply bind_ok in H. destruct H as (l & _ & H). apply bind_ok in H. destruct H as (n & _ & H).
  apply bind_ok in H. destruct H as ((h1, c) & E & H). apply bind_ok in H. destruct H as (l' & _ & H).
  apply bind_ok in H. destruct H as (b' & E' & H). injection H as <- <-.
  apply vector_new_inv in E. destruct E as (-> & -> & _). apply from_data_data in E'. subst b'.
  eexists. repeat split.
Qed.

Lemma row_appended : forall m (h : heap) n h' b,
  row_vector_zeros_from_length m h n = Ok (h', b) -> appended h h' b.
Proof.
  intros m h n h' b H. unfold row_vector_zeros_from_length in H.
  apply bind_ok in H. destruct H as ((h1, c) & E & H).
  apply bind_ok in H. destruct H as (b' & E' & H). injection H as <- <-.
  apply vector_new_inv in E. destruct E as (-> & -> & _). apply from_data_data in E'. subst b'.
  eexists. repeat split.
Qed.

Lemma column_appended : forall m (h : heap) n h' b,
  column_vector_zeros_from_length m h n = Ok (h', b) -> appended h h' b.
Proof.
  intros m h n h' b H. unfold column_vector_zeros_from_length in H.
  apply bind_ok in H. destruct H as ((h1, c) & E & H).
  apply bind_ok in H. destruct H as (b' & E' & H). injection H as <- <-.
  apply vector_new_inv in E. destruct E as (-> & -> & _). apply from_data_data in E'. subst b'.
  eexists. repeat split.
Qed.

Lemma row_dim_appended : forall m (h : heap) r c h' b,
  row_vector_zeros_from_dim m h r c = Ok (h', b) -> appended h h' b.
Proof.
  intros m h r c h' b H. rewrite row_vector_from_dim in H. destruct (r =? 1); [|discriminate].
  eapply row_appended; eauto.
Qed.

Lemma column_dim_appended : forall m (h : heap) r c h' b,
  column_vector_zeros_from_dim m h r c = Ok (h', b) -> appended h h' b.
Proof.
  intros m h r c h' b H. rewrite column_vector_from_dim in H. destruct (c =? 1); [|discriminate].
  eapply column_appended; eauto.
Qed.

Lemma fixed_appended : forall m (h : heap) k rs cs h' b,
  zeros_fixed m h k rs cs = Ok (h', b) -> appended h h' b.
Proof.
  intros m h k rs cs h' b H. unfold zeros_fixed, array_container_new, alloc in H.
  apply bind_ok in H. destruct H as (l & _ & H).
  apply bind_ok in H. destruct H as (b' & E' & H). injection H as <- <-.
  apply from_data_data in E'. subst b'. eexists. repeat split.
Qed.

Lemma fixed_vector_appended : forall m (h : heap) rs cs k n h' b,
  zeros_fixed_vector m h rs cs k n = Ok (h', b) -> appended h h' b.
Proof.
  intros m h rs cs k n h' b H. unfold zeros_fixed_vector, array_container_new, alloc in H.
  destruct (from_length k n); [|discriminate].
  apply bind_ok in H. destruct H as (b' & E' & H). injection H as <- <-.
  apply from_data_data in E'. subst b'. eexists. repeat split.
Qed.

Lemma appended_only : forall h h' b, appended h h' b -> only_allocates h h'.
Proof. intros h h' b (l & -> & _). apply only_allocates_app. Qed.

(** A computation that allocates [b], then only writes to [b]. *)
Lemma appended_then : forall h h1 h2 b, appended h h1 b ->
  touches (in_region (c_region (bm_data b))) h1 h2 ->
  (forall P, touches P h h2) /\ allocation b = length h /\ owned_container b /\ (length h < length h2)%nat.
Proof.
  intros h h1 h2 b Ha [He Ht]. pose proof (appended_only _ _ _ Ha) as Ho.
  destruct Ha as (l & -> & Eb & Ec). splits; auto.
  - intros P. apply only_allocates_touches. apply same_hget_only_allocates.
    + eapply extends_trans; [apply extends_app|exact He].
    + intros a i Ha. rewrite Ht.
      * apply hget_app. exact Ha.
      * rewrite app_length. lia.
      * unfold in_region. cbn. unfold allocation in Eb. lia.
  - apply extends_length in He. rewrite app_length in He. cbn in He. lia.
Qed.

Lemma eval_appended : forall m (h : heap) x h' b, eval m h x = Ok (h', b) ->
  (forall P, touches P h h') /\ allocation b = length h /\ owned_container b /\ (length h < length h')%nat.
Proof.
  intros m h x h' b H. unfold eval in H.
  apply bind_ok in H. destruct H as ((h1, b1) & E & H). apply bind_ok in H. destruct H as (n & _ & H).
  apply bind_ok in H. destruct H as (h2 & El & H). injection H as <- <-.
  apply zeros_appended in E. eapply appended_then; eauto.
  eapply loop_touches; [|exact El]. intros k h3 h4 H. cbv beta in H.
  apply bind_ok in H. destruct H as (v & _ & H). apply bind_ok in H. destruct H as (p & Ep & H).
  apply base_mut1d_in in Ep. apply place_write_touches in H.
  eapply touches_weaken; [|exact H]. intros a j _ Eq. cbv beta in Eq. now rewrite Eq.
Qed.

Lemma dot_appended : forall shape kern m (h : heap) a b h' r, dot shape kern m h a b = Ok (h', r) ->
  (forall P, touches P h h') /\ allocation r = length h /\ owned_container r /\ (length h < length h')%nat.
Proof.
  intros shape kern m h a b h' r H.
  destruct shape; cbn [dot] in H; unfold dot_mat_mat, dot_row_mat, dot_mat_col in H;
    apply bind_ok in H; destruct H as ((h1, b1) & E & H);
    apply bind_ok in H; destruct H as (h2 & Em & H); injection H as <- <-;
    apply matmul_touches in Em; eapply appended_then; eauto.
  - eapply zeros_appended; eauto.
  - eapply row_dim_appended; eauto.
  - eapply column_dim_appended; eauto.
Qed.

(** All leaves live in allocations of the heap. *)
Definition placed (h : heap) (x : matrix T) : Prop :=
  forall a, lives_in a x -> (a < length h)%nat.

Definition all_placed (st : state T) : Prop := Forall (placed (st_heap st)) (st_mats st).

Lemma occupies_lives : forall (x : matrix T) q, occupies x q -> lives_in (fst q) x.
Proof.
  intros x q. induction x; cbn [occupies lives_in]; auto; [|tauto].
  intros (E & _). unfold allocation. auto.
Qed.

Lemma placed_more : forall h h' x, (length h <= length h')%nat -> placed h x -> placed h' x.
Proof. intros h h' x Hl H a Ha. specialize (H a Ha). lia. Qed.

Lemma lookup_placed : forall st n x, all_placed st -> lookup st n = Some x -> placed (st_heap st) x.
Proof.
  intros st n x H E. unfold all_placed in H. rewrite Forall_forall in H. apply H.
  eapply nth_error_In. exact E.
Qed.

Lemma lookup_base_inv : forall (st : state T) n b, lookup_base st n = Some b -> lookup st n = Some (MBase b).
Proof.
  intros st n b H. unfold lookup_base in H. destruct (lookup st n) as [[]|]; try discriminate. congruence.
Qed.

Lemma lookup_mut_inv : forall (st : state T) n b, lookup_mut st n = Some b ->
  lookup_base st n = Some b /\ container_is_mut (bm_data b) = true.
Proof.
  intros st n b H. unfold lookup_mut in H. destruct (lookup_base st n) as [b'|]; [|discriminate].
  destruct (container_is_mut (bm_data b')) eqn:E; [|discriminate]. split; congruence.
Qed.

Lemma lookup_block_inv : forall (st : state T) mut n b, lookup_block st mut n = Some b ->
  lookup_base st n = Some b.
Proof.
  intros st [] n b H; auto. cbn in H. now apply lookup_mut_inv in H.
Qed.

Lemma base_placed : forall h b, placed h (MBase b) <-> (allocation b < length h)%nat.
Proof.
  intros h b. split; intros H; [now apply H|]. intros a Ha. cbn in Ha. subst. exact H.
Qed.

Lemma from_pointer_strided_alloc : forall m mut o p d s b, from_pointer_strided m mut o p d s = Ok b ->
  allocation b = r_alloc (p_region p).
Proof.
  intros m mut o p d s b H. unfold from_pointer_strided, from_raw_parts in H. cbv zeta in H.
  do 4 (apply bind_ok in H; destruct H as (? & _ & H)). apply bind_ok in H. destruct H as (r & E & H).
  destruct (_ <=? _) in E; [|discriminate]. injection E as <-. apply from_data_data in H. subst b.
  destruct mut; reflexivity.
Qed.

Lemma from_pointer_alloc : forall m mut o p d b, from_pointer m mut o p d = Ok b ->
  allocation b = r_alloc (p_region p).
Proof.
  intros m mut o p d b H. unfold from_pointer, from_raw_parts in H. cbv zeta in H.
  do 1 (apply bind_ok in H; destruct H as (? & _ & H)). apply bind_ok in H. destruct H as (r & E & H).
  destruct (_ <=? _) in E; [|discriminate]. injection E as <-. apply from_data_data in H. subst b.
  destruct mut; reflexivity.
Qed.

Lemma ptr_offset_region : forall p d q, ptr_offset p d = Ok q -> p_region q = p_region p.
Proof. intros p d q H. unfold ptr_offset in H. cbv zeta in H. destruct (_ && _)%bool in H; [|discriminate]. now injection H as <-. Qed.

Lemma block_alloc : forall m mut b tl d v, block m mut b tl d = Ok v -> allocation v = allocation b.
Proof.
  intros m mut b tl d v H. unfold block in H. destruct (block_order _); [|discriminate].
  do 4 (apply bind_ok in H; destruct H as (? & _ & H)). apply bind_ok in H. destruct H as (p & E & H).
  apply bind_ok in H; destruct H as (? & _ & H).
  apply from_pointer_strided_alloc in H. apply ptr_offset_region in E. now rewrite H, E.
Qed.

Lemma split_alloc : forall m b s b0 b1 b2 b3, split_in_four_mut m b s = Ok (b0, b1, b2, b3) ->
  Forall (fun v => allocation v = allocation b) [b0; b1; b2; b3].
Proof.
  intros m b s b0 b1 b2 b3 H. unfold split_in_four_mut in H. cbv zeta in H.
  do 9 (apply bind_ok in H; destruct H as (? & _ & H)).
  assert (A : forall p off d s' v, ptr_offset (get_pointer b) off = Ok p ->
     from_pointer_strided m true ByRow p d s' = Ok v -> allocation v = allocation b).
  { intros p off d s' v Hp Hv. apply from_pointer_strided_alloc in Hv. apply ptr_offset_region in Hp.
    now rewrite Hv, Hp. }
  apply bind_ok in H. destruct H as (p0 & P0 & H). apply bind_ok in H. destruct H as (v0 & V0 & H).
  apply bind_ok in H. destruct H as (p1 & P1 & H). apply bind_ok in H. destruct H as (v1 & V1 & H).
  apply bind_ok in H. destruct H as (p2 & P2 & H). apply bind_ok in H. destruct H as (v2 & V2 & H).
  apply bind_ok in H. destruct H as (p3 & P3 & H). apply bind_ok in H. destruct H as (v3 & V3 & H).
  injection H as <- <- <- <-. repeat (constructor; [eauto|]). constructor.
Qed.

Lemma slice_alloc : forall b first last r, get_slice b first last = Ok r -> r_alloc r = allocation b.
Proof.
  intros b first last r H. unfold get_slice, container_get_slice, from_raw_parts in H. cbv zeta in H.
  do 2 (apply bind_ok in H; destruct H as (? & _ & H)). apply bind_ok in H. destruct H as (p & E & H).
  apply ptr_offset_region in E. destruct (_ <=? _) in H; [|discriminate]. injection H as <-. cbn. now rewrite E.
Qed.

Lemma slice_region_in : forall b first last r i p, get_slice b first last = Ok r ->
  region_place r i = Ok p -> in_region (c_region (bm_data b)) (pl_alloc p, pl_index p).
Proof.
  intros b first last r i p Hr Hp.
  destruct (N.ltb_spec first last); [destruct (N.leb_spec last (r_len (c_region (bm_data b))))|];
    try (rewrite get_slice_panic in Hr by lia; discriminate).
  rewrite get_slice_ok in Hr by auto. injection Hr as <-. apply region_place_in in Hp.
  unfold in_region, slice_of in *. cbn in *. lia.
Qed.

Lemma wrap_lives : forall p a (x : matrix T), lives_in a (wrap p x) <-> lives_in a x.
Proof. intros [] a x; cbn; tauto. Qed.

Lemma some_inj : forall (A : Type) (x y : A), Some x = Some y -> x = y.
Proof. congruence. Qed.

(** The effect of one call, in any mode. *)
Lemma step_effect : forall kern m st (o : call T St) st' r, all_placed st ->
  step kern m st o = Ok (st', r) ->
  touches (fun q => writes_over st o q) (st_heap st) (st_heap st') /\
  (exists new, st_mats st' = st_mats st ++ new) /\ all_placed st'.
Proof.
  intros kern m st o st' r Hp H. unfold step in H.
  destruct (exec kern m st o) as [[[st1 r1]| |]|] eqn:E; try discriminate H;
    injection H as <- <-; try (splits; [apply touches_refl | exists []; now rewrite app_nil_r | exact Hp]).
  assert (KEEP : forall h' news, (length (st_heap st) <= length h')%nat -> Forall (placed h') news ->
     all_placed (mkState h' (st_mats st ++ news))).
  { intros h' news Hl Hn. apply Forall_app. split; [|exact Hn].
    eapply Forall_impl; [|exact Hp]. intros x. now apply placed_more. }
  assert (NEW1 : forall f : outcome (heap * base_matrix),
     (forall h' b, f = Ok (h', b) -> (forall P, touches P (st_heap st) h') /\
        (allocation b < length h')%nat) ->
     new1 st f = Ok (st1, r1) ->
     touches (fun q => writes_over st o q) (st_heap st) (st_heap st1) /\
     (exists new, st_mats st1 = st_mats st ++ new) /\ all_placed st1).
  { intros f Hf Hn. unfold new1 in Hn. apply bind_ok in Hn. destruct Hn as ((h', b) & Ef & Hn).
    injection Hn as <- <-. destruct (Hf _ _ Ef) as [Ht Ha]. cbn [st_heap st_mats]. splits; eauto.
    apply KEEP.
    - destruct (Ht (fun _ => False)) as [He _]. now apply extends_length.
    - constructor; [|constructor]. now apply base_placed. }
  assert (APP : forall f : outcome (heap * base_matrix),
     (forall h' b, f = Ok (h', b) -> appended (st_heap st) h' b) ->
     new1 st f = Ok (st1, r1) ->
     touches (fun q => writes_over st o q) (st_heap st) (st_heap st1) /\
     (exists new, st_mats st1 = st_mats st ++ new) /\ all_placed st1).
  { intros f Hf. apply NEW1. intros h' b Eb. apply Hf in Eb. split.
    - intros P. apply only_allocates_touches. eapply appended_only; eauto.
    - destruct Eb as (l & -> & -> & _). rewrite app_length. cbn. lia. }
  assert (VIEW : forall f : outcome base_matrix,
     (forall b, f = Ok b -> (allocation b < length (st_heap st))%nat) ->
     new_view st f = Ok (st1, r1) ->
     touches (fun q => writes_over st o q) (st_heap st) (st_heap st1) /\
     (exists new, st_mats st1 = st_mats st ++ new) /\ all_placed st1).
  { intros f Hf Hn. unfold new_view in Hn. apply bind_ok in Hn. destruct Hn as (b & Ef & Hn).
    injection Hn as <- <-. cbn [st_heap st_mats]. splits; [apply touches_refl | eauto |].
    apply KEEP; auto. constructor; [|constructor]. apply base_placed. auto. }
  assert (EXPR : forall f : outcome (matrix T),
     (forall x, f = Ok x -> placed (st_heap st) x) ->
     new_expr st f = Ok (st1, r1) ->
     touches (fun q => writes_over st o q) (st_heap st) (st_heap st1) /\
     (exists new, st_mats st1 = st_mats st ++ new) /\ all_placed st1).
  { intros f Hf Hn. unfold new_expr in Hn. apply bind_ok in Hn. destruct Hn as (b & Ef & Hn).
    injection Hn as <- <-. cbn [st_heap st_mats]. splits; [apply touches_refl | eauto |].
    apply KEEP; auto. }
  assert (ITEM : forall f : outcome T, item st f = Ok (st1, r1) ->
     touches (fun q => writes_over st o q) (st_heap st) (st_heap st1) /\
     (exists new, st_mats st1 = st_mats st ++ new) /\ all_placed st1).
  { intros f Hn. unfold item in Hn. apply bind_ok in Hn. destruct Hn as (v & _ & Hn).
    injection Hn as <- <-. splits; [apply touches_refl | exists []; now rewrite app_nil_r | exact Hp]. }
  assert (WRITE : forall h' y (P : nat * N -> Prop), target st o = Some y -> (forall q, P q -> occupies y q) ->
     touches P (st_heap st) h' ->
     touches (fun q => writes_over st o q) (st_heap st) h' /\
     (exists new, st_mats st = st_mats st ++ new) /\ all_placed (mkState h' (st_mats st))).
  { intros h' y P Hy HP Ht. splits.
    - eapply touches_weaken; [|exact Ht]. intros a i _ H. exists y. auto.
    - exists []. now rewrite app_nil_r.
    - pose proof (extends_length _ _ (proj1 Ht)) as Hl.
      eapply Forall_impl; [|exact Hp]. intros x. now apply placed_more. }
  assert (DONE : forall (f : outcome heap) y (P : nat * N -> Prop), target st o = Some y -> (forall q, P q -> occupies y q) ->
     (forall h', f = Ok h' -> touches P (st_heap st) h') -> done st f = Ok (st1, r1) ->
     touches (fun q => writes_over st o q) (st_heap st) (st_heap st1) /\
     (exists new, st_mats st1 = st_mats st ++ new) /\ all_placed st1).
  { intros f y P Hy HP Ht Hn. unfold done in Hn. apply bind_ok in Hn. destruct Hn as (h' & Ef & Hn).
    injection Hn as <- <-. cbn [st_heap st_mats]. eapply WRITE; eauto. }
  destruct o; cbn [exec] in E; unfold typed, when in E;
    repeat match type of E with
      | match ?x with _ => _ end = Some _ => destruct x eqn:?; try discriminate E
      end;
    try (apply some_inj in E).
  - (* zeros *) revert E. apply APP. intros. eapply zeros_appended; eauto.
  - revert E. apply APP. intros. eapply fixed_appended; eauto.
  - revert E. apply APP. intros. eapply fixed_vector_appended; eauto.
  - revert E. apply APP. intros. eapply row_appended; eauto.
  - revert E. apply APP. intros. eapply column_appended; eauto.
  - revert E. apply APP. intros. eapply row_dim_appended; eauto.
  - revert E. apply APP. intros. eapply column_dim_appended; eauto.
  - (* from_vector *) revert E. apply APP. intros h' b H. apply bind_ok in H. destruct H as ((h1, c) & Ev & H).
    apply bind_ok in H. destruct H as (b' & Eb & H). injection H as <- <-.
    apply vector_new_inv in Ev. destruct Ev as (-> & -> & _). apply from_data_data in Eb. subst b'.
    eexists. repeat split.
  - (* from_array *) revert E. apply APP. intros h' b H. unfold array_container_new, alloc in H.
    apply bind_ok in H. destruct H as (b' & Eb & H). injection H as <- <-.
    apply from_data_data in Eb. subst b'. eexists. repeat split.
  - (* from_slice *) revert E. apply VIEW. intros v H. apply bind_ok in H. destruct H as (rg & Er & H).
    apply from_data_data in H. subst v.
    apply lookup_block_inv, lookup_base_inv in Heqo. apply lookup_placed in Heqo; auto.
    rewrite get_slice_mut_eq in Er.
    assert (Er' : get_slice b first last = Ok rg) by now destruct mut.
    apply slice_alloc in Er'. apply base_placed in Heqo. unfold allocation at 1. cbn [bm_data].
    now rewrite slice_container_region, Er'.
  - revert E. apply VIEW. intros v H. apply bind_ok in H. destruct H as (p & Ep & H).
    apply lookup_block_inv, lookup_base_inv in Heqo0. apply lookup_placed in Heqo0; auto.
    apply from_pointer_alloc in H. apply ptr_offset_region in Ep. rewrite H, Ep. now apply base_placed.
  - revert E. apply VIEW. intros v H. apply bind_ok in H. destruct H as (p & Ep & H).
    apply lookup_block_inv, lookup_base_inv in Heqo0. apply lookup_placed in Heqo0; auto.
    apply from_pointer_strided_alloc in H. apply ptr_offset_region in Ep. rewrite H, Ep. now apply base_placed.
  - revert E. apply ITEM.
  - revert E. apply ITEM.
  - (* set *) revert E. eapply DONE; [exact Heqo | | apply set_touches]. auto.
  - revert E. eapply DONE; [exact Heqo | | apply set1d_touches]. auto.
  - revert E. apply ITEM.
  - revert E. apply ITEM.
  - revert E. eapply DONE; [exact Heqo | intros q Hq; exact Hq |]. intros h' H.
    apply bind_ok in H. destruct H as (p & Ep & H). eapply write_touches; eauto. eapply mut_in; eauto.
  - revert E. eapply DONE; [exact Heqo | intros q Hq; exact Hq |]. intros h' H.
    apply bind_ok in H. destruct H as (p & Ep & H). eapply write_touches; eauto. eapply mut1d_in; eauto.
  - revert E. apply ITEM.
  - (* slice write *) apply lookup_mut_inv in Heqo. destruct Heqo as [Hb _]. apply lookup_base_inv in Hb.
    revert E. eapply DONE; [exact Hb | intros q Hq; exact Hq |]. intros h' H.
    apply bind_ok in H. destruct H as (rg & Er & H). unfold slice_write in H.
    apply bind_ok in H. destruct H as (u & _ & H). apply bind_ok in H. destruct H as (p & Ep & H).
    rewrite get_slice_mut_eq in Er. eapply write_touches; eauto. eapply slice_region_in; eauto.
  - (* dim *) injection E as <- <-. splits; [apply touches_refl | exists []; now rewrite app_nil_r | exact Hp].
  - injection E as <- <-. splits; [apply touches_refl | exists []; now rewrite app_nil_r | exact Hp].
  - (* block *) revert E. apply VIEW. intros v H. apply block_alloc in H.
    apply lookup_block_inv, lookup_base_inv in Heqo. apply lookup_placed in Heqo; auto.
    rewrite H. now apply base_placed.
  - (* split *) apply lookup_mut_inv in Heqo. destruct Heqo as [Hb _]. apply lookup_base_inv in Hb.
    apply lookup_placed in Hb; auto. apply base_placed in Hb.
    apply bind_ok in E. destruct E as ((((b0, b1), b2), b3) & Es & E). injection E as <- <-.
    apply split_alloc in Es. cbn [st_heap st_mats]. splits; [apply touches_refl | eauto |].
    apply KEEP; auto.
    repeat match goal with H : Forall _ (_ :: _) |- _ => inversion H; clear H; subst end.
    repeat (constructor; [apply base_placed; congruence|]). constructor.
  - (* from_ref *) revert E. apply EXPR. intros x0 H. injection H as <-. eapply lookup_placed in Heqo; eauto.
  - revert E. apply EXPR. intros x0 H. injection H as <-. eapply lookup_placed in Heqo; eauto.
  - revert E. apply EXPR. intros x0 H. injection H as <-. eapply lookup_placed in Heqo; eauto.
    rewrite scalar_times_eq. intros a Ha. cbn in Ha. apply wrap_lives in Ha. auto.
  - revert E. apply EXPR. intros x0 H. injection H as <-. eapply lookup_placed in Heqo; eauto.
    rewrite times_scalar_eq. intros a Ha. cbn in Ha. apply wrap_lives in Ha. auto.
  - revert E. apply EXPR. intros x0 H. rewrite plus_eq in H. destruct (dim_eqb _ _); [|discriminate].
    injection H as <-. eapply lookup_placed in Heqo; eauto. eapply lookup_placed in Heqo0; eauto.
    intros a Ha. cbn in Ha. rewrite !wrap_lives in Ha. destruct Ha; auto.
  - (* eval *) revert E. apply NEW1. intros h' b H. apply eval_appended in H.
    destruct H as (Ht & -> & _ & Hl). auto.
  - (* for_each *) apply lookup_mut_inv in Heqo. destruct Heqo as [Hb _]. apply lookup_base_inv in Hb.
    unfold looped in E. apply bind_ok in E. destruct E as (((h', s'), pn) & Ef & E). injection E as <- <-.
    cbn [st_heap st_mats]. apply for_each_touches in Ef. eapply WRITE; [exact Hb| |exact Ef]. auto.
  - apply lookup_mut_inv in Heqo. destruct Heqo as [Hb _]. apply lookup_base_inv in Hb.
    unfold looped in E. apply bind_ok in E. destruct E as (((h', s'), pn) & Ef & E). injection E as <- <-.
    cbn [st_heap st_mats]. apply for_each_touches in Ef. eapply WRITE; [exact Hb| |exact Ef]. auto.
  - (* matmul *) apply lookup_mut_inv in Heqo1. destruct Heqo1 as [Hb _]. apply lookup_base_inv in Hb.
    revert E. eapply DONE; [exact Hb | intros q Hq; exact Hq |]. intros h' H. apply matmul_touches in H. exact H.
  - (* dot *) revert E. apply NEW1. intros h' r H. apply dot_appended in H.
    destruct H as (Ht & -> & _ & Hl). auto.
Qed.

Lemma initial_placed : all_placed (@initial T).
Proof. constructor. Qed.

Lemma run_placed : forall kern m (os : list (call T St)) st st' rs, all_placed st ->
  run kern m st os = Ok (st', rs) -> all_placed st'.
Proof.
  intros kern m os. induction os as [|o os IH]; intros st st' rs Hp H; cbn [run] in H.
  - injection H as <- <-. exact Hp.
  - apply bind_ok in H. destruct H as ((st1, r) & E & H). apply bind_ok in H. destruct H as ((st2, rs2) & E2 & H).
    injection H as <- <-. apply step_effect in E; auto. destruct E as (_ & _ & Hp1). eauto.
Qed.

(** The effect of a history. *)
Lemma run_effect : forall kern m (os : list (call T St)) st st' rs, all_placed st ->
  run kern m st os = Ok (st', rs) ->
  touches (fun q => history_writes_over kern m st os q) (st_heap st) (st_heap st') /\
  (exists new, st_mats st' = st_mats st ++ new) /\ all_placed st'.
Proof.
  intros kern m os. induction os as [|o os IH]; intros st st' rs Hp H; cbn [run] in H.
  - injection H as <- <-. splits; [apply touches_refl | exists []; now rewrite app_nil_r | exact Hp].
  - apply bind_ok in H. destruct H as ((st1, r) & E & H). apply bind_ok in H. destruct H as ((st2, rs2) & E2 & H).
    injection H as <- <-. destruct (step_effect _ _ _ _ _ _ Hp E) as (Ht & (n1 & Hn1) & Hp1).
    destruct (IH _ _ _ Hp1 E2) as (Ht2 & (n2 & Hn2) & Hp2). splits; auto.
    + eapply touches_trans.
      * eapply touches_weaken; [|exact Ht]. intros a i _ H. cbn [history_writes_over]. auto.
      * eapply touches_weaken; [|exact Ht2]. intros a i _ H. cbn [history_writes_over]. rewrite E. auto.
    + exists (n1 ++ n2). now rewrite Hn2, Hn1, app_assoc.
Qed.

(** Reads depend on the cells a matrix occupies only. *)
Lemma region_read_same : forall (h h' : heap) r i,
  (forall q, in_region r q -> hget h' (fst q) (snd q) = hget h (fst q) (snd q)) ->
  region_read h' r i = region_read h r i.
Proof.
  intros h h' r i H. unfold region_read. destruct (N.ltb_spec i (r_len r)); auto.
  specialize (H (r_alloc r, r_lo r + i)). cbn [fst snd] in H. rewrite H; auto. unfold in_region. cbn. lia.
Qed.

Lemma reads_occupied : forall (h h' : heap) (x : matrix T),
  (forall q, occupies x q -> hget h' (fst q) (snd q) = hget h (fst q) (snd q)) -> reads_same h h' x.
Proof.
  intros h h' x H m.
  assert (A : (forall r c, get_unchecked m h' x r c = get_unchecked m h x r c) /\
              (forall i, get1d_unchecked m h' x i = get1d_unchecked m h x i)).
  { induction x as [b | x IH | x IH | x IH s | x IHx y IHy l]; cbn [occupies] in H;
      cbn [get_unchecked get1d_unchecked]; auto.
    - split; intros; unfold base_get_unchecked, base_get1d_unchecked.
      + destruct (convert_2d_raw m (bm_layout b) r c); cbn [bind]; auto. now apply region_read_same.
      + destruct (convert_1d_raw m (bm_layout b) i); cbn [bind]; auto. now apply region_read_same.
    - destruct (IH H) as [H1 H2]. split; intros; [now rewrite H1 | now rewrite H2].
    - destruct (IHx (fun q Hq => H q (or_introl Hq))) as [X1 X2].
      destruct (IHy (fun q Hq => H q (or_intror Hq))) as [Y1 Y2].
      split; intros; [now rewrite X1, Y1 | now rewrite X2, Y2]. }
  destruct A as [A1 A2]. split; intros; unfold get, get1d.
  - destruct (assert_dimension _ _ _); cbn [bind]; auto.
  - destruct (number_of_elements _ _); cbn [bind]; auto. destruct (assert_dimension1d _ _); cbn [bind]; auto.
Qed.

(** C40, by containers. *)
Lemma c40_containers : forall kern m (os os' : list (call T St)) st rs st' rs',
  run kern m (@initial T) os = Ok (st, rs) -> run kern m st os' = Ok (st', rs') ->
  forall n x, nth_error (st_mats st) n = Some x ->
    nth_error (st_mats st') n = Some x /\
    ((forall q, occupies x q -> ~ history_writes_over kern m st os' q) ->
     reads_same (st_heap st) (st_heap st') x).
Proof.
  intros kern m os os' st rs st' rs' H H' n x Hx. apply run_placed in H; [|apply initial_placed].
  destruct (run_effect _ _ _ _ _ _ H H') as ((He & Ht) & (new & Hn) & _). split.
  - rewrite Hn. rewrite nth_error_app1; auto. apply nth_error_Some. congruence.
  - intros Hq. apply reads_occupied. intros [a i] Ho. cbn [fst snd]. apply Ht; auto.
    eapply lookup_placed; eauto. now apply occupies_lives in Ho.
Qed.

Lemma over_in : forall st (o : call T St) a i, writes_over st o (a, i) -> writes_in st o a.
Proof. intros st o a i (x & Hx & Ho). exists x. split; auto. now apply occupies_lives in Ho. Qed.

Lemma history_over_in : forall kern m (os : list (call T St)) st a i,
  history_writes_over kern m st os (a, i) -> history_writes_in kern m st os a.
Proof.
  intros kern m os. induction os as [|o os IH]; intros st a i; cbn [history_writes_over history_writes_in]; auto.
  intros [H|H]; [left; eapply over_in; eauto | right]. destruct (step kern m st o) as [[]| |]; eauto.
Qed.

(** C40: allocations that no call writes in stay as they are. *)
Lemma c40_allocations : forall kern m (os os' : list (call T St)) st rs st' rs' a l,
  run kern m (@initial T) os = Ok (st, rs) -> run kern m st os' = Ok (st', rs') ->
  nth_error (st_heap st) a = Some l -> ~ history_writes_in kern m st os' a ->
  nth_error (st_heap st') a = Some l.
Proof.
  intros kern m os os' st rs st' rs' a l H H' Hl Hw. apply run_placed in H; [|apply initial_placed].
  destruct (run_effect _ _ _ _ _ _ H H') as ((He & Ht) & _ & _).
  assert (Ha : (a < length (st_heap st))%nat) by (apply nth_error_Some; congruence).
  destruct (He a l Hl) as (l' & Hl' & El). rewrite Hl'. f_equal. apply nth_error_ext. intros i.
  specialize (Ht a (N.of_nat i) Ha). unfold hget in Ht. rewrite Hl, Hl', Nat2N.id in Ht. apply Ht.
  intros Ho. apply Hw. eapply history_over_in; eauto.
Qed.

Lemma c40_matrices : forall kern m (os os' : list (call T St)) st rs st' rs',
  run kern m (@initial T) os = Ok (st, rs) -> run kern m st os' = Ok (st', rs') ->
  forall n x, nth_error (st_mats st) n = Some x ->
    nth_error (st_mats st') n = Some x /\
    ((forall a, lives_in a x -> ~ history_writes_in kern m st os' a) ->
     reads_same (st_heap st) (st_heap st') x).
Proof.
  intros kern m os os' st rs st' rs' H H' n x Hx.
  destruct (c40_containers _ _ _ _ _ _ _ _ H H' n x Hx) as [H1 H2]. split; auto.
  intros Ha. apply H2. intros [a i] Ho Hw. apply (Ha a).
  - now apply occupies_lives in Ho.
  - eapply history_over_in; eauto.
Qed.

End Effects.

(** ** Memory safety *)

Section Safety.
Context {T : Type} {SC : HScalar T} {St : Type}.
Notation heap := (@heap T).

Fixpoint row_strided (x : matrix T) : Prop :=
  match x with
  | MBase b => row_strides (bm_layout b)
  | MRef x | MRefMut x | MScalarMult x _ => row_strided x
  | MAddition x y _ => row_strided x /\ row_strided y
  end.

Definition sound_matrix (m : mode) (h : heap) (x : matrix T) : Prop :=
  valid h x /\ row_strided x.

Definition sound (m : mode) (st : state T) : Prop := Forall (sound_matrix m (st_heap st)) (st_mats st).

(** The unchecked accesses, at valid positions, are the checked ones. *)
Lemma get_unchecked_checked : forall m h (u : matrix T) r c, in_range (dim (mat_layout u)) (r, c) ->
  get_unchecked m h u r c = get m h u r c.
Proof. intros m h u r c H. unfold get. rewrite assert_dimension_ok by exact H. reflexivity. Qed.

Lemma get1d_unchecked_checked : forall m h (u : matrix T) i, valid h u -> i < entry_count (mat_layout u) ->
  get1d_unchecked m h u i = get1d m h u i.
Proof.
  intros m h u i Hv Hi. destruct (get1d_unchecked_ok m h u i Hv Hi) as (v & E & H).
  destruct (get1d_stored m h u i Hv Hi) as (v' & E' & H'). congruence.
Qed.

Lemma set_unchecked_checked : forall m h (u : matrix T) r c v, in_range (dim (mat_layout u)) (r, c) ->
  (p <- get_unchecked_mut m u r c ;; place_write h p v) = set m h u r c v.
Proof. intros m h u r c v H. unfold set, get_mut. rewrite assert_dimension_ok by exact H. reflexivity. Qed.

Lemma set1d_unchecked_checked : forall m h (u : matrix T) b i v, valid h u -> writes_to u = Some b ->
  i < entry_count (mat_layout u) ->
  (p <- get1d_unchecked_mut m u i ;; place_write h p v) = set1d m h u i v.
Proof.
  intros m h u b i v Hv Hw Hi. unfold set1d. rewrite (get1d_mut_stored m h u b i Hv Hw Hi).
  rewrite (get1d_unchecked_mut_base m u b i Hw).
  pose proof (writes_to_layout _ _ Hw) as El. rewrite El in *.
  rewrite (base_get1d_unchecked_mut_ok m h b i) by (eauto using writes_to_valid). reflexivity.
Qed.

Lemma dense_row_strides : forall l, has_strides l = false -> row_strides l.
Proof. intros []; cbn; auto; discriminate. Qed.

Lemma chain_row_strides : forall l, chain l -> row_strides l.
Proof. intros []; cbn; auto; contradiction. Qed.

Lemma row_strides_chain : forall l o, row_strides l -> block_order l = Some o -> chain l.
Proof. intros []; cbn; auto; discriminate. Qed.

Lemma from_data_sound : forall m h rs cs c l b, slice_ok h (c_region c) -> strides_fit l (r_len (c_region c)) ->
  m = Checked \/ small l -> from_data m rs cs c l = Ok b -> sound_matrix m h (MBase b).
Proof.
  intros m h rs cs c l b Hs [Hr Hl] Hm H. unfold sound_matrix.
  assert (Hsm : small l).
  { destruct Hm as [-> | Hm]; [|exact Hm]. apply from_data_inv in H. destruct H as (_ & n & En & _).
    now apply number_of_elements_checked in En. }
  apply from_data_inv in H. destruct H as (-> & n & En & Hn). splits; cbn [row_strided bm_layout]; auto.
  cbn [valid]. destruct (has_strides l) eqn:El.
  - split; [exact Hs|]. split; [exact Hsm|]. now apply Hl.
  - apply dense_base_valid; auto. rewrite number_of_elements_ok in En by auto. congruence.
Qed.

Lemma dense_strides_fit : forall l n, has_strides l = false -> strides_fit l n.
Proof. intros l n H. split; [now apply dense_row_strides|]. congruence. Qed.

Lemma fresh_sound : forall m h h' b, fresh_zeros h h' b -> has_strides (bm_layout b) = false ->
  sound_matrix m h' (MBase b).
Proof. intros m h h' b (_ & Hv & _) Hl. unfold sound_matrix. splits; auto. now apply dense_row_strides. Qed.

Lemma lookup_sound : forall m st n x, sound m st -> lookup st n = Some x -> sound_matrix m (st_heap st) x.
Proof.
  intros m st n x H E. unfold sound in H. rewrite Forall_forall in H. apply H. eapply nth_error_In. exact E.
Qed.

Lemma zeros_safe : forall m (h : heap) k rows cols,
  m = Checked \/ (forall l, from_dimension k (rows, cols) = Ok l -> small l) ->
  zeros_from_dim m h k rows cols = Panic \/
  exists h' b, zeros_from_dim m h k rows cols = Ok (h', b) /\ fresh_zeros h h' b /\
    has_strides (bm_layout b) = false /\
    from_dimension k (rows, cols) = Ok (bm_layout b).
Proof.
  intros m h k rows cols Hm.
  destruct (from_dimension k (rows, cols)) as [l| |] eqn:El.
  - destruct (N.leb_spec (entry_count l * Npos ssize) isize_max) as [Hc|Hc].
    + right. destruct (zeros_ok m h k rows cols l El Hc) as (h' & b & E & Eb & _ & _ & _ & Hf & _).
      exists h', b. rewrite Eb. splits; auto. now apply from_dimension_dense in El.
    + left. destruct Hm as [-> | Hm]; [now apply zeros_panic with l|].
      unfold zeros_from_dim. rewrite El. cbn [bind]. rewrite number_of_elements_ok by now apply Hm.
      cbn [bind]. now rewrite vector_container_new_panic.
  - left. unfold zeros_from_dim. now rewrite El.
  - now apply from_dimension_not_ub in El.
Qed.

Lemma row_safe : forall m (h : heap) n,
  row_vector_zeros_from_length m h n = Panic \/
  exists h' b, row_vector_zeros_from_length m h n = Ok (h', b) /\ fresh_zeros h h' b /\
    bm_layout b = RowVector n.
Proof.
  intros m h n. destruct (N.leb_spec (n * Npos ssize) isize_max) as [Hc|Hc].
  - right. destruct (row_vector_ok m h n Hc) as (h' & b & E & Eb & _ & Hf & _).
    exists h', b. splits; auto.
  - left. now apply vector_panic.
Qed.

Lemma column_safe : forall m (h : heap) n,
  column_vector_zeros_from_length m h n = Panic \/
  exists h' b, column_vector_zeros_from_length m h n = Ok (h', b) /\ fresh_zeros h h' b /\
    bm_layout b = ColumnVector n.
Proof.
  intros m h n. destruct (N.leb_spec (n * Npos ssize) isize_max) as [Hc|Hc].
  - right. destruct (column_vector_ok m h n Hc) as (h' & b & E & Eb & _ & Hf & _).
    exists h', b. splits; auto.
  - left. now apply vector_panic.
Qed.

Lemma block_safe : forall m (h : heap) mut b tl d o, base_valid h b -> row_strides (bm_layout b) ->
  block_order (bm_layout b) = Some o -> nonempty d -> m = Checked \/ (fst tl + fst d < usize_mod /\ snd tl + snd d < usize_mod) ->
  block m mut b tl d = Panic \/
  exists v, block m mut b tl d = Ok v /\ base_valid h v /\ row_strides (bm_layout v).
Proof.
  intros m h mut b tl d o Hv Ht Ho Hn Hm. pose proof (row_strides_chain _ _ Ht Ho) as Hc.
  destruct (inside_dec (dim (bm_layout b)) tl d) as [Hi|Hi].
  - right. destruct (block_ok m h mut b tl d Hv Hc Hn Hi) as (E & Hv' & Hc').
    eexists. splits; eauto using chain_row_strides.
  - left. apply block_outside_panics with o; auto.
Qed.

(** Splitting anywhere but in the interior panics. *)
Lemma from_pointer_strided_empty : forall mut o p d s, ~ nonempty d ->
  from_pointer_strided Checked mut o p d s = Panic.
Proof.
  intros mut o p d s H. unfold from_pointer_strided. unfold nonempty in H. cbv zeta.
  unfold usub at 1. destruct (N.leb_spec 1 (fst d)); cbn [overflow bind]; [|reflexivity].
  unfold usub at 1. destruct (N.leb_spec 1 (snd d)); cbn [overflow bind]; [|reflexivity]. lia.
Qed.

Lemma split_outside : forall (h : heap) b D s, base_valid h b -> bm_layout b = RowMajor D ->
  ~ interior D s -> split_in_four_mut Checked b s = Panic.
Proof.
  intros h b D s Hv Hl Hi. destruct D as [D1 D2]. destruct s as [s1 s2].
  unfold interior in Hi. cbn [fst snd] in Hi.
  pose proof Hv as (Hs & Hsm & Hc). rewrite Hl in Hsm, Hc. cbn [small fst snd] in Hsm.
  destruct Hs as [Hr Hlen].
  assert (B : D1 = 0 \/ D2 = 0 \/ D1 * D2 <= r_len (c_region (bm_data b))).
  { destruct (N.eq_dec D1 0); auto. destruct (N.eq_dec D2 0); auto. right; right.
    specialize (Hc (D1 - 1, D2 - 1)).
    assert (stored (RowMajor (D1, D2)) (D1 - 1, D2 - 1)) as Hst.
    { split; [|discriminate]. split; cbn; lia. }
    apply Hc in Hst. cbn in Hst. nia. }
  unfold split_in_four_mut. rewrite Hl. cbn [dim fst snd stride bind]. cbv zeta.
  unfold usub. cbn [overflow].
  destruct (N.leb_spec s2 D2) as [H2|H2]; cbn [bind]; [|reflexivity].
  destruct (N.leb_spec s1 D1) as [H1|H1]; cbn [bind]; [|reflexivity].
  destruct (N.leb_spec s2 D2) as [_|?]; [|lia]. cbn [bind].
  assert (R : forall r c, r <= D1 -> c <= D2 -> r * D2 + c < usize_mod ->
    convert_2d_raw Checked (RowMajor (D1, D2)) r c = Ok (r * D2 + c)).
  { intros r c _ _ H. cbn [convert_2d_raw]. unfold row_major_2d_1d. cbn [fst snd].
    rewrite umul_ok by lia. cbn [bind]. now rewrite uadd_ok. }
  rewrite (R 0 0) by (try lia; rewrite usize_mod_val; lia). cbn [bind].
  replace (0 * D2 + 0) with 0 by lia.
  assert (P0 : ptr_offset (get_pointer b) (as_isize 0) = Ok (mkPointer (c_region (bm_data b)) 0)).
  { rewrite ptr_offset_ok; [reflexivity | rewrite isize_max_val; lia | cbn; lia]. }
  destruct (nonempty_dec (s1, s2)) as [Hn|Hn].
  2:{ apply bind_panic; [apply convert_2d_raw_not_ub|intros a1 _].
      apply bind_panic; [apply convert_2d_raw_not_ub|intros a2 _].
      apply bind_panic; [apply convert_2d_raw_not_ub|intros a3 _].
      rewrite P0. cbn [bind]. now rewrite from_pointer_strided_empty. }
  destruct Hn as [N1 N2]. cbn [fst snd] in N1, N2.
  assert (L : D1 * D2 <= r_len (c_region (bm_data b))) by (destruct B as [?|[?|?]]; lia). clear B.
  assert (L2 : s1 * D2 <= D1 * D2) by nia.
  assert (L3 : D2 <= D1 * D2) by nia.
  rewrite isize_max_val in Hlen.
  rewrite (R 0 s2) by (try lia; rewrite usize_mod_val; lia). cbn [bind].
  rewrite (R s1 0) by (try lia; rewrite usize_mod_val; lia). cbn [bind].
  rewrite (R s1 s2) by (try lia; rewrite usize_mod_val; lia). cbn [bind].
  rewrite P0. cbn [bind].
  assert (SP : forall d1 d2 off, 1 <= d1 -> 1 <= d2 -> d2 <= D2 -> off + ((d1 - 1) * D2 + (d2 - 1) * 1 + 1) <= r_len (c_region (bm_data b)) ->
    exists v, from_pointer_strided Checked true ByRow (mkPointer (c_region (bm_data b)) off) (d1, d2) (D2, 1) = Ok v).
  { intros d1 d2 off Hd1 Hd2 Hd Ho. eexists. apply (from_pointer_strided_ok Checked h); cbn [p_region p_off fst snd].
    - split; auto.
    - split; auto.
    - exact Ho.
    - unfold span. cbn [fst snd]. nia. }
  destruct (SP s1 s2 0) as (v0 & ->); auto; [nia|]. cbn [bind].
  rewrite ptr_offset_ok by (cbn; rewrite ?isize_max_val; lia). cbn [bind get_pointer container_get_pointer p_region p_off].
  destruct (N.eq_dec s2 D2) as [->|].
  { rewrite from_pointer_strided_empty; [reflexivity|]. unfold nonempty. cbn. lia. }
  assert (s1 = D1) by lia. subst s1.
  destruct (SP D1 (D2 - s2) (0 + (0 * D2 + s2))) as (v1 & ->); try lia. cbn [bind].
  rewrite ptr_offset_ok by (cbn [get_pointer container_get_pointer p_region p_off]; rewrite ?isize_max_val; lia).
  cbn [bind].
  rewrite from_pointer_strided_empty; [reflexivity|]. unfold nonempty. cbn. lia.
Qed.

End Safety.
