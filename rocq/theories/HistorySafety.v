(** * HistorySafety: no history of safe calls has undefined behaviour. *)

From Coq Require Import ZifyBool ZifyNat ZifyN.
From Verif Require Import Machine MachineFacts Layouts Memory Matrix MatMul Spec MatrixSpec ExprSpec ProductSpec.
From Verif Require Import LayoutFacts MemoryFacts AccessFacts AccessProofs ConstructorProofs BlockProofs.
From Verif Require Import ExprProofs ProductProofs Program HistorySpec.
From Verif Require Import BlockExact HistoryProofs.
Local Open Scope N_scope.

Section Safety.
Context {T : Type} {SC : HScalar T} {St : Type}.
Notation heap := (@heap T).

Lemma operand_told : forall (h : heap) b, base_valid h b -> row_strides (bm_layout b) ->
  strided_type (bm_layout b) = true ->
  exists s, stride (bm_layout b) = Ok s /\ told_ok h b s.
Proof.
  intros h b Hv Ht Hs. destruct (strided_matrix (bm_layout b)) eqn:Em.
  2:{ destruct (true_told h b Hv) as (s & E & Hs' & _); eauto. apply operand_true. unfold product_operand.
      now rewrite Hs, Em. }
  - assert (chain (bm_layout b)) by (destruct (bm_layout b); cbn in *; try discriminate; auto). exists (told_stride (bm_layout b)). split; [now apply chain_stride | now apply chain_told_ok].
Qed.

Lemma compatible_dec : forall a b c, compatible a b c \/ ~ compatible a b c.
Proof.
  intros [a1 a2] [b1 b2] [c1 c2]. unfold compatible. cbn [fst snd].
  destruct (N.eq_dec a2 b1), (N.eq_dec c1 a1), (N.eq_dec c2 b2); intuition.
Qed.

Lemma matmul_no_ub : forall kern (h : heap) alpha a b beta c,
  base_valid h a -> base_valid h b -> base_valid h c ->
  row_strides (bm_layout a) -> row_strides (bm_layout b) -> row_strides (bm_layout c) ->
  strided_type (bm_layout a) = true -> strided_type (bm_layout b) = true -> strided_type (bm_layout c) = true ->
  matmul kern h alpha a b beta c = Panic \/
  exists h', matmul kern h alpha a b beta c = Ok h' /\ extends h h'.
Proof.
  intros kern h alpha a b beta c Va Vb Vc Ta Tb Tc Sa Sb Sc.
  destruct (compatible_dec (dim (bm_layout a)) (dim (bm_layout b)) (dim (bm_layout c))) as [Hc|Hc].
  - destruct (operand_told h a Va Ta Sa) as (sa & Ea & Oa). destruct (operand_told h b Vb Tb Sb) as (sb & Eb & Ob).
    destruct (operand_told h c Vc Tc Sc) as (sc & Ec & Oc). right.
    destruct (matmul_safe kern h alpha a b beta c sa sb sc Ea Eb Ec Hc Oa Ob Oc) as (h' & E & _). exists h'. split; auto.
    apply matmul_touches in E. apply E.
  - left. now apply matmul_incompatible.
Qed.

Lemma writable_base : forall x : matrix T, is_writable x = true -> exists b, writes_to x = Some b.
Proof.
  intros x. induction x; cbn [is_writable writes_to]; intros H; try discriminate; auto.
  rewrite H. eauto.
Qed.

Lemma slice_of_ok : forall (h : heap) r first last, slice_ok h r -> first < last -> last <= r_len r ->
  slice_ok h (slice_of r first last).
Proof.
  intros h r first last [(l & El & Hl) Hi] H1 H2. rewrite isize_max_val in Hi.
  split; cbn [r_len r_lo r_alloc slice_of]; [|rewrite isize_max_val; lia].
  exists l. cbn [r_len r_lo r_alloc slice_of]. split; auto. lia.
Qed.

Lemma get_slice_cases : forall (h : heap) b first last, base_valid h b ->
  get_slice b first last = Panic \/
  exists r, get_slice b first last = Ok r /\ slice_ok h r /\ r_len r = last - first.
Proof.
  intros h b first last (Hs & _).
  destruct (N.ltb_spec first last) as [H1|H1]; [|left; apply get_slice_panic; lia].
  destruct (N.leb_spec last (r_len (c_region (bm_data b)))) as [H2|H2]; [|left; apply get_slice_panic; lia].
  right. eexists. split; [now apply get_slice_ok|]. split; [now apply slice_of_ok|reflexivity].
Qed.

Lemma row_strides_span : forall o d s, row_strides (strided_layout o d s) -> nonempty d -> fst d * snd d <= span d s.
Proof.
  intros o [a b] [s0 s1] H [Ha Hb]. unfold span. destruct o; cbn [strided_layout row_strides fst snd] in *;
    destruct H as [-> H]; nia.
Qed.

Lemma valid_placed : forall (h : heap) x, valid h x -> placed h x.
Proof.
  intros h x. induction x; cbn [valid]; intros H a Ha; cbn [lives_in] in Ha.
  - subst a. destruct H as ((Hr & _) & _). now apply region_ok_alloc.
  - now apply IHx.
  - now apply IHx.
  - now apply IHx.
  - destruct H as (Hx & Hy & _). destruct Ha; [now apply IHx1 | now apply IHx2].
Qed.

Lemma sound_placed : forall m (st : state T), sound m st -> all_placed st.
Proof. intros m st H. eapply Forall_impl; [|exact H]. intros x (Hv & _). now apply valid_placed. Qed.

Lemma slice_ok_alloc : forall (h : heap) n c, n * Npos ssize <= isize_max ->
  c_region c = mkRegion (length h) 0 n -> slice_ok (h ++ [repeat szero (N.to_nat n)]) (c_region c).
Proof.
  intros h n c Hn ->. pose proof (ssize_pos (T := T)). split; cbn [r_len]; [|nia].
  exists (repeat szero (N.to_nat n)). cbn [r_alloc r_lo r_len]. split; [|rewrite repeat_length; lia].
  rewrite nth_error_app2 by lia. now rewrite Nat.sub_diag.
Qed.

Lemma kind_eqb_eq : forall k k', kind_eqb k k' = true -> k = k'.
Proof. intros [] []; cbn; congruence. Qed.

Lemma fixed_instance_in : forall rs cs k, is_fixed_instance rs cs k = true -> In (rs, cs, k) fixed_instances.
Proof.
  intros rs cs k H. unfold is_fixed_instance in H. apply existsb_exists in H.
  destruct H as (((r, c), k') & Hin & H).
  apply andb_true_iff in H. destruct H as [H Hk]. apply andb_true_iff in H. destruct H as [Hr Hc].
  apply kind_eqb_eq in Hk. subst.
  destruct r, rs; try discriminate Hr; destruct c, cs; try discriminate Hc; exact Hin.
Qed.

Lemma zeros_fixed_dense : forall m (h : heap) k rs cs h' b, zeros_fixed m h k rs cs = Ok (h', b) ->
  has_strides (bm_layout b) = false.
Proof.
  intros m h k rs cs h' b H. unfold zeros_fixed in H. destruct (array_container_new h _) as [h1 c].
  apply bind_ok in H. destruct H as (l & El & H). apply bind_ok in H. destruct H as (b1 & Eb & H).
  injection H as <- <-. apply from_data_inv in Eb. destruct Eb as (-> & _). now apply from_dimension_dense in El.
Qed.

Lemma zeros_fixed_vector_dense : forall m (h : heap) rs cs k n h' b, zeros_fixed_vector m h rs cs k n = Ok (h', b) ->
  has_strides (bm_layout b) = false.
Proof.
  intros m h rs cs k n h' b H. unfold zeros_fixed_vector in H. destruct (array_container_new h _) as [h1 c].
  destruct (from_length k n) as [l|] eqn:El; [|discriminate]. apply bind_ok in H. destruct H as (b1 & Eb & H).
  injection H as <- <-. apply from_data_inv in Eb. destruct Eb as (-> & _).
  destruct k; try discriminate El; injection El as <-; reflexivity.
Qed.

Lemma fixed_vector_instance_in : forall rs cs k n, is_fixed_vector_instance rs cs k n = true ->
  In (rs, cs, k, n) fixed_vector_instances.
Proof.
  intros rs cs k n H. unfold is_fixed_vector_instance in H. apply existsb_exists in H.
  destruct H as ((((r, c), k'), n') & Hin & H). apply andb_true_iff in H. destruct H as [H Hn].
  apply andb_true_iff in H. destruct H as [H Hk]. apply andb_true_iff in H. destruct H as [Hr Hc].
  apply N.eqb_eq in Hn. apply kind_eqb_eq in Hk. subst.
  destruct r, rs; try discriminate Hr; destruct c, cs; try discriminate Hc; exact Hin.
Qed.

Lemma no_wrap_zeros : forall (st : state T) k rows cols, no_wrap_call st (CZeros k rows cols : call T St) ->
  forall l, from_dimension k (rows, cols) = Ok l -> small l.
Proof.
  intros st k rows cols H l E. destruct k; cbn in E; unfold assert_ in E;
    repeat match type of E with context [if ?x then _ else _] => destruct x eqn:? end;
    cbn in E; try discriminate; injection E as <-; exact H || exact Logic.I.
Qed.

Lemma exec_safe : forall kern m st (o : call T St) r, sound m st -> within_contract st o ->
  m = Checked \/ no_wrap_call st o -> exec kern m st o = Some r ->
  r = Panic \/
  exists st' res, r = Ok (st', res) /\
    exists new, st_mats st' = st_mats st ++ new /\ Forall (sound_matrix m (st_heap st')) new.
Proof.
  intros kern m st o r Hs Ho Hm E.
  set (goal := fun r : outcome (state T * result T St) => r = Panic \/
    exists st' res, r = Ok (st', res) /\
      exists new, st_mats st' = st_mats st ++ new /\ Forall (sound_matrix m (st_heap st')) new).
  change (goal r).
  assert (NEW1 : forall f : outcome (heap * base_matrix),
     f = Panic \/ (exists h' b, f = Ok (h', b) /\ sound_matrix m h' (MBase b)) -> goal (new1 st f)).
  { intros f [->|(h' & b & -> & Hb)]; [now left|]. right. unfold new1. cbn [bind].
    eexists _, _. split; [reflexivity|]. cbn [st_mats st_heap]. eauto. }
  assert (FRESH : forall f : outcome (heap * base_matrix),
     f = Panic \/ (exists h' b, f = Ok (h', b) /\ fresh_zeros (st_heap st) h' b /\
        has_strides (bm_layout b) = false) -> goal (new1 st f)).
  { intros f Hf. apply NEW1. destruct Hf as [->|(h' & b & -> & H1 & H2)]; [now left|]. right.
    exists h', b. split; auto. eapply fresh_sound; eauto. }
  assert (VIEW : forall f : outcome base_matrix,
     f = Panic \/ (exists b, f = Ok b /\ sound_matrix m (st_heap st) (MBase b)) -> goal (new_view st f)).
  { intros f [->|(b & -> & Hb)]; [now left|]. right. unfold new_view. cbn [bind].
    eexists _, _. split; [reflexivity|]. cbn [st_mats st_heap]. eauto. }
  assert (EXPR : forall f : outcome (matrix T),
     f = Panic \/ (exists x, f = Ok x /\ sound_matrix m (st_heap st) x) -> goal (new_expr st f)).
  { intros f [->|(b & -> & Hb)]; [now left|]. right. unfold new_expr. cbn [bind].
    eexists _, _. split; [reflexivity|]. cbn [st_mats st_heap]. eauto. }
  assert (ITEM : forall f : outcome T, f = Panic \/ (exists v, f = Ok v) -> goal (item st f)).
  { intros f [->|(v & ->)]; [now left|]. right. unfold item. cbn [bind].
    eexists _, _. split; [reflexivity|]. exists []. split; [now rewrite app_nil_r|constructor]. }
  assert (DONE : forall f : outcome heap, f = Panic \/ (exists h', f = Ok h') -> goal (done st f)).
  { intros f [->|(v & ->)]; [now left|]. right. unfold done. cbn [bind].
    eexists _, _. split; [reflexivity|]. exists []. cbn [st_mats]. split; [now rewrite app_nil_r|constructor]. }
  assert (BASE : forall n b, lookup_base st n = Some b ->
     base_valid (st_heap st) b /\ row_strides (bm_layout b)).
  { intros n b H. apply lookup_base_inv in H. exact (lookup_sound m st n _ Hs H). }
  assert (READ : forall x, sound_matrix m (st_heap st) x -> forall i j,
     get m (st_heap st) x i j = Panic \/ exists v, get m (st_heap st) x i j = Ok v).
  { intros x (Hv & _) i j. destruct (stored_dec (mat_layout x) (i, j)) as [H|H].
    - right. destruct (get_stored m _ _ _ _ Hv H) as (v & Hg & _). eauto.
    - left. now apply get_not_stored. }
  destruct o; cbn [exec] in E; unfold typed, when in E;
    repeat match type of E with
      | match ?x with _ => _ end = Some _ => destruct x eqn:?; try discriminate E
      end;
    try (apply some_inj in E); try subst r; cbn [within_contract no_wrap_call] in Ho, Hm; try contradiction.
  - (* zeros *) apply FRESH. destruct (zeros_safe m (st_heap st) k rows cols
      (match Hm with or_introl H => or_introl H | or_intror H => or_intror (no_wrap_zeros st k rows cols H) end)) as [->|(h' & b & -> & ?)]; [now left|].
    right. exists h', b. tauto.
  - apply FRESH. right. apply fixed_instance_in in Heqb.
    destruct (c15_matrices m (st_heap st) rs cs k Heqb) as (h' & b & E & _ & Hd & _ & Hf).
    exists h', b. splits; eauto using zeros_fixed_dense.
  - apply FRESH. right. apply fixed_vector_instance_in in Heqb.
    destruct (c15_vectors m (st_heap st) rs cs k n Heqb) as (h' & b & E & _ & Hd & _ & Hf).
    exists h', b. splits; eauto using zeros_fixed_vector_dense.
  - apply FRESH. destruct (row_safe m (st_heap st) n) as [->|(h' & b & -> & Hf & El)]; [now left|].
    right. exists h', b. splits; auto. now rewrite El.
  - apply FRESH. destruct (column_safe m (st_heap st) n) as [->|(h' & b & -> & Hf & El)]; [now left|].
    right. exists h', b. splits; auto. now rewrite El.
  - apply FRESH. rewrite row_vector_from_dim. destruct (rows =? 1); [|now left].
    destruct (row_safe m (st_heap st) cols) as [->|(h' & b & -> & Hf & El)]; [now left|].
    right. exists h', b. splits; auto. now rewrite El.
  - apply FRESH. rewrite column_vector_from_dim. destruct (cols =? 1); [|now left].
    destruct (column_safe m (st_heap st) rows) as [->|(h' & b & -> & Hf & El)]; [now left|].
    right. exists h', b. splits; auto. now rewrite El.
  - (* from_vector *) apply NEW1. destruct (vector_container_new (st_heap st) n) as [[h' c]| |] eqn:Ev; cbn [bind];
      [|now left|now apply vector_container_new_not_ub in Ev].
    destruct (from_data m rs cs c l) as [b| |] eqn:Eb; cbn [bind]; [|now left|now apply from_data_not_ub in Eb].
    right. exists h', b. split; auto. apply vector_new_inv in Ev. destruct Ev as (-> & -> & Hn).
    refine (from_data_sound m _ rs cs _ l b _ _ Hm Eb); [now apply slice_ok_alloc|exact Ho].
  - (* from_array *) apply NEW1. unfold array_container_new, alloc.
    destruct (from_data m rs cs _ l) as [b| |] eqn:Eb; cbn [bind]; [|now left|now apply from_data_not_ub in Eb].
    right. eexists _, b. split; [reflexivity|]. apply N.leb_le in Heqb.
    refine (from_data_sound m _ rs cs _ l b _ _ Hm Eb).
    + apply slice_ok_alloc; auto. cbn [c_region]. now rewrite repeat_length, N2Nat.id.
    + cbn [c_region r_len]. now rewrite repeat_length, N2Nat.id.
  - (* from_slice *) apply VIEW. apply lookup_block_inv in Heqo. destruct (BASE _ _ Heqo) as (Hv & _).
    assert (Es : (if mut then get_slice_mut b first last else get_slice b first last) = get_slice b first last)
      by (destruct mut; auto using get_slice_mut_eq). rewrite Es.
    destruct (get_slice_cases (st_heap st) b first last Hv) as [->|(rg & -> & Hr & Hlen)]; [now left|]. cbn [bind].
    destruct (from_data m rs cs (slice_container mut rg) l) as [v| |] eqn:Eb;
      [|now left|now apply from_data_not_ub in Eb].
    right. exists v. split; auto. refine (from_data_sound m _ rs cs _ l v _ _ Hm Eb); rewrite slice_container_region;
      [exact Hr|rewrite Hlen; exact Ho].
  - (* from_pointer *) apply VIEW.
    match goal with H : lookup_block _ _ _ = Some _ |- _ => apply lookup_block_inv in H; rename H into Heqo end. destruct (BASE _ _ Heqo) as (Hv & _).
    specialize (Ho _ Heqo). unfold room in Ho. right.
    rewrite ptr_add_ok by (unfold get_pointer, container_get_pointer; cbn [p_off p_region]; lia). cbn [bind].
    unfold get_pointer, container_get_pointer. cbn [p_off p_region]. rewrite N.add_0_l.
    destruct (from_pointer_dense_ok m (st_heap st) mut o (mkPointer (c_region (bm_data b)) off) d)
      as (v & -> & Hv' & El & _); cbn [p_region p_off]; [apply Hv|exact Ho|].
    exists v. split; auto. unfold sound_matrix. cbn [valid row_strided mat_layout]. rewrite El.
    splits; auto; destruct o; cbn; auto.
  - (* from_pointer, strided *) apply VIEW.
    match goal with H : lookup_block _ _ _ = Some _ |- _ => apply lookup_block_inv in H; rename H into Heqo end. destruct (BASE _ _ Heqo) as (Hv & _).
    destruct Ho as (Hne & Hrs & Ho). specialize (Ho _ Heqo). unfold room in Ho. right.
    pose proof Hne as [Hne0 Hne1].
    assert (Hlast := Ho (fst d - 1, snd d - 1)). cbn [fst snd] in Hlast.
    assert (Hlast' : off + ((fst d - 1) * fst s + (snd d - 1) * snd s) < r_len (c_region (bm_data b))).
    { apply Hlast. split; cbn [fst snd]; lia. }
    assert (Hoff : off <= r_len (c_region (bm_data b))) by (clear - Hlast'; revert Hlast'; generalize ((fst d - 1) * fst s + (snd d - 1) * snd s); lia).
    rewrite ptr_add_ok by (unfold get_pointer, container_get_pointer; cbn [p_off p_region]; lia). cbn [bind].
    unfold get_pointer, container_get_pointer. cbn [p_off p_region]. rewrite N.add_0_l.
    destruct (from_pointer_strided_ok m (st_heap st) mut o (mkPointer (c_region (bm_data b)) off) d s)
      as [-> Hv']; cbn [p_region p_off]; [apply Hv|exact Hne|unfold span; lia|now apply (row_strides_span o)|].
    eexists. split; [reflexivity|]. unfold sound_matrix. cbn [valid row_strided mat_layout]. splits; auto.
  - (* get *) apply ITEM. apply READ. eapply lookup_sound; eauto.
  - apply ITEM. destruct (lookup_sound _ _ _ _ Hs Heqo) as (Hv & _).
    destruct (N.ltb_spec i (entry_count (mat_layout m0))) as [H|H].
    + right. destruct (get1d_stored m _ _ _ Hv H) as (v & -> & _). eauto.
    + left. now apply get1d_not_stored.
  - (* set *) apply DONE. destruct (lookup_sound _ _ _ _ Hs Heqo) as (Hv & _).
    apply writable_base in Heqb. destruct Heqb as (b & Hb).
    destruct (stored_dec (mat_layout m0) (r0, c)) as [H|H].
    + right. destruct (set_stored m _ _ _ _ _ v Hv Hb H) as (h' & -> & _). eauto.
    + left. now apply (set_not_stored m _ _ b _ _ v Hv Hb).
  - apply DONE. destruct (lookup_sound _ _ _ _ Hs Heqo) as (Hv & _).
    apply writable_base in Heqb. destruct Heqb as (b & Hb).
    destruct (N.ltb_spec i (entry_count (mat_layout m0))) as [H|H].
    + right. rewrite (set1d_stored m _ _ b _ v Hv Hb H). destruct (pos_spec _ _ H) as [Hp _].
      destruct (pos (mat_layout m0) i) as [p1 p2]. cbn [fst snd].
      destruct (set_stored m _ _ _ _ _ v Hv Hb Hp) as (h' & -> & _). eauto.
    + left. now apply set1d_not_stored.
  - (* unchecked *) apply ITEM. pose proof (lookup_sound _ _ _ _ Hs Heqo) as Hx. specialize (Ho _ Heqo).
    rewrite get_unchecked_checked by apply Ho. now apply READ.
  - apply ITEM. destruct (lookup_sound _ _ _ _ Hs Heqo) as (Hv & _). specialize (Ho _ Heqo).
    rewrite get1d_unchecked_checked by auto. right. destruct (get1d_stored m _ _ _ Hv Ho) as (v & -> & _). eauto.
  - apply DONE. destruct (lookup_sound _ _ _ _ Hs Heqo) as (Hv & _). specialize (Ho _ Heqo).
    apply writable_base in Heqb. destruct Heqb as (b & Hb). rewrite set_unchecked_checked by apply Ho.
    right. destruct (set_stored m _ _ _ _ _ v Hv Hb Ho) as (h' & -> & _). eauto.
  - apply DONE. destruct (lookup_sound _ _ _ _ Hs Heqo) as (Hv & _). specialize (Ho _ Heqo).
    apply writable_base in Heqb. destruct Heqb as (b & Hb).
    rewrite (set1d_unchecked_checked m (st_heap st) m0 b) by auto. right.
    rewrite (set1d_stored m _ _ b _ v Hv Hb Ho). destruct (pos_spec _ _ Ho) as [Hp _].
    destruct (pos (mat_layout m0) i) as [p1 p2]. cbn [fst snd].
    destruct (set_stored m _ _ _ _ _ v Hv Hb Hp) as (h' & -> & _). eauto.
  - (* slice read *) apply ITEM. destruct (BASE _ _ Heqo) as (Hv & _).
    destruct (get_slice_cases (st_heap st) b first last Hv) as [->|(rg & -> & Hr & _)]; [now left|]. cbn [bind].
    unfold slice_read. destruct (N.ltb_spec i (r_len rg)) as [H|H]; [|now left]. cbn [assert_ bind].
    right. destruct (region_read_ok (st_heap st) rg i (proj1 Hr) H) as (w & -> & _). eauto.
  - apply DONE. apply lookup_mut_inv in Heqo. destruct Heqo as [Heqo _]. destruct (BASE _ _ Heqo) as (Hv & _).
    rewrite get_slice_mut_eq.
    destruct (get_slice_cases (st_heap st) b first last Hv) as [->|(rg & -> & Hr & _)]; [now left|]. cbn [bind].
    unfold slice_write. destruct (N.ltb_spec i (r_len rg)) as [H|H]; [|now left]. cbn [assert_ bind].
    right. destruct (region_read_ok (st_heap st) rg i (proj1 Hr) H) as (w & _ & Ew).
    rewrite region_place_ok by auto. cbn [bind]. unfold place_write. cbn [pl_alloc pl_index]. rewrite Ew. eauto.
  - (* dim *) right. eexists _, _. split; [reflexivity|]. exists []. split; [now rewrite app_nil_r|constructor].
  - right. eexists _, _. split; [reflexivity|]. exists []. split; [now rewrite app_nil_r|constructor].
  - (* block *) apply VIEW. apply lookup_block_inv in Heqo. destruct (BASE _ _ Heqo) as (Hv & Ht).
    assert (Hb : m = Checked /\ ~ nonempty d /\ cell (bm_layout b) tl <= room b \/
                 nonempty d /\ (m = Checked \/ (fst tl + fst d < usize_mod /\ snd tl + snd d < usize_mod))).
    { destruct Hm as [->|(H1 & H2 & H3)]; [|auto]. destruct (nonempty_dec d); auto.
      destruct Ho as [Ho|Ho]; auto. }
    destruct Hb as [(-> & He & Hc)|[Hne Hm']].
    { left. apply block_empty_panics; auto. eapply row_strides_chain; eauto. }
    destruct (block_safe m (st_heap st) mut b tl d o Hv Ht Heqo0 Hne Hm') as [->|(v & -> & Hv' & Ht')]; [now left|].
    right. exists v. split; auto. unfold sound_matrix. auto.
  - (* split *) apply lookup_mut_inv in Heqo. destruct Heqo as [Heqo _]. destruct (BASE _ _ Heqo) as (Hv & Ht).
    assert (Hcases : ~ interior dim at_ /\ m = Checked \/ interior dim at_).
    { destruct Hm as [->|Hm]; [|right; specialize (Hm _ Heqo); now rewrite Heql in Hm].
      assert (Hdec : interior dim at_ \/ ~ interior dim at_) by (unfold interior; lia). tauto. }
    destruct Hcases as [[Hi ->]|Hi].
    { left. now rewrite (split_outside (st_heap st) b dim at_). }
    right. destruct (split_ok m (st_heap st) b dim at_ Hv Heql Hi) as [-> Hq]. unfold quarters. cbn [bind].
    eexists _, _. split; [reflexivity|]. cbn [st_mats st_heap]. eexists. split; [reflexivity|].
    assert (Hk : forall k, sound_matrix m (st_heap st)
       (MBase (block_view true b (quarter_origin at_ k) (quarter_dim (Layouts.dim (bm_layout b)) at_ k)))).
    { intros k. destruct (quarter_inside dim at_ k Hi) as [H1 H2].
      assert (Hch : chain (bm_layout b)) by (rewrite Heql; constructor).
      rewrite Heql. cbn [Layouts.dim].
      destruct (block_ok m (st_heap st) true b (quarter_origin at_ k) (quarter_dim dim at_ k) Hv Hch H1) as (_ & V & C).
      { now rewrite Heql. }
      unfold sound_matrix. cbn [valid row_strided mat_layout]. split; auto. now apply chain_row_strides. }
    auto 10.
  - (* from_ref *) apply EXPR. right. eexists. split; [reflexivity|]. exact (lookup_sound _ _ _ _ Hs Heqo).
  - apply EXPR. right. eexists. split; [reflexivity|]. exact (lookup_sound _ _ _ _ Hs Heqo).
  - apply EXPR. right. eexists. split; [reflexivity|]. rewrite scalar_times_eq.
    destruct (lookup_sound _ _ _ _ Hs Heqo) as (Hv & Ht). destruct p; repeat split; auto.
  - apply EXPR. right. eexists. split; [reflexivity|]. rewrite times_scalar_eq.
    destruct (lookup_sound _ _ _ _ Hs Heqo) as (Hv & Ht). destruct p; repeat split; auto.
  - (* plus *) apply EXPR. destruct (lookup_sound _ _ _ _ Hs Heqo) as (Hv & Ht).
    destruct (lookup_sound _ _ _ _ Hs Heqo0) as (Hv' & Ht').
    apply andb_true_iff in Heqb. destruct Heqb as [Hk _]. apply kind_eqb_eq in Hk. rewrite plus_eq.
    destruct (dim_eqb _ _) eqn:Ed; [|now left]. apply dim_eqb_eq in Ed. right. eexists. split; [reflexivity|].
    unfold sound_matrix. cbn [valid row_strided mat_layout]. rewrite !wrap_layout, !wrap_valid.
    splits; auto; destruct p, q; auto.
  - (* eval *) apply NEW1. destruct (lookup_sound _ _ _ _ Hs Heqo) as (Hv & Ht).
    destruct (column_vector_like (mat_layout m0)) eqn:Ecol; [destruct (N.eq_dec (fst (mat_dim m0)) 1)|].
    2:{ left. now apply c26_column. }
    all: destruct (N.leb_spec (entry_count (mat_layout m0) * Npos ssize) isize_max) as [Hn|Hn];
      [right | left; eapply c26; auto; congruence].
    all: destruct (eval_ok m (st_heap st) m0 Hv ltac:(congruence) Hn) as (h' & b & Ee & _ & _ & Vb & Lb & _);
      exists h', b; split; auto; unfold sound_matrix; cbn [valid row_strided mat_layout]; rewrite Lb;
      split; auto; now destruct (mat_layout m0).
  - (* for_each *) apply lookup_mut_inv in Heqo. destruct Heqo as [Heqo _]. destruct (BASE _ _ Heqo) as (Hv & _).
    right. destruct (c30_cells St m (st_heap st) b f s Hv) as (qs & h' & s' & pn & _ & _ & ->).
    unfold looped. cbn [bind]. eexists _, _. split; [reflexivity|]. exists []. cbn [st_mats].
    split; [now rewrite app_nil_r|constructor].
  - apply lookup_mut_inv in Heqo. destruct Heqo as [Heqo _]. destruct (BASE _ _ Heqo) as (Hv & _).
    right. unfold fill_from_rand.
    destruct (c30_cells St m (st_heap st) b
       (fun g _ => let '(v, g') := random_scalar g in (g', v, false)) s Hv) as (qs & h' & s' & pn & _ & _ & ->).
    unfold looped. cbn [bind]. eexists _, _. split; [reflexivity|]. exists []. cbn [st_mats].
    split; [now rewrite app_nil_r|constructor].
  - (* matmul *) apply DONE. apply lookup_mut_inv in Heqo1. destruct Heqo1 as [Heqo1 _].
    destruct (BASE _ _ Heqo) as (Va & Ta). destruct (BASE _ _ Heqo0) as (Vb & Tb).
    destruct (BASE _ _ Heqo1) as (Vc & Tc).
    match goal with H : matmul_typed _ _ _ = true |- _ => rename H into Heqb end. unfold matmul_typed in Heqb. apply andb_true_iff in Heqb. destruct Heqb as [Heqb _].
    apply andb_true_iff in Heqb. destruct Heqb as [Heqb S3]. apply andb_true_iff in Heqb. destruct Heqb as [S1 S2].
    destruct (matmul_no_ub kern (st_heap st) alpha b0 b1 beta b2) as [->|(h' & -> & _)]; eauto.
  - (* dot *) apply NEW1. destruct (BASE _ _ Heqo) as (Va & Ta). destruct (BASE _ _ Heqo0) as (Vb & Tb).
    match goal with H : dot_typed _ _ _ = true |- _ => rename H into Heqb end. unfold dot_typed in Heqb. apply andb_true_iff in Heqb. destruct Heqb as [Heqb _].
    apply andb_true_iff in Heqb. destruct Heqb as [S1 S2].
    assert (GO : forall f, f = Panic \/ (exists h1 r, f = Ok (h1, r) /\ fresh_zeros (st_heap st) h1 r /\
        has_strides (bm_layout r) = false /\ strided_type (bm_layout r) = true) ->
      let r := ('(h1, res) <- f ;; h2 <- matmul kern h1 sone b0 b1 szero res ;; Ok (h2, res)) in
      r = Panic \/ exists h' b, r = Ok (h', b) /\ sound_matrix m h' (MBase b)).
    { intros f [->|(h1 & r & -> & Hf & Hl & S3)]; [now left|]. cbn [bind].
      pose proof Hf as (Hoa & Vr & _). apply only_allocates_extends in Hoa.
      assert (Va1 : base_valid h1 b0) by (eapply base_valid_extends; eauto).
      assert (Vb1 : base_valid h1 b1) by (eapply base_valid_extends; eauto).
      assert (Tr : row_strides (bm_layout r)) by now apply dense_row_strides.
      destruct (matmul_no_ub kern h1 sone b0 b1 szero r Va1 Vb1 Vr Ta Tb Tr S1 S2 S3) as [->|(h' & -> & He)];
        [now left|].
      right. cbn [bind]. exists h', r. split; auto. unfold sound_matrix. cbn [valid row_strided mat_layout].
      splits; eauto using base_valid_extends. }
    destruct shape; cbn [dot]; unfold dot_mat_mat, dot_row_mat, dot_mat_col; apply GO.
    + destruct (zeros_safe m (st_heap st) KRowMajor (fst (dim (bm_layout b0))) (snd (dim (bm_layout b1))))
        as [->|(h1 & r & -> & H1 & H2 & H4)]; [|now left|].
      { destruct Hm as [|Hm]; auto. right. intros l El. injection El as <-. now apply Hm. }
      right. exists h1, r. splits; auto. now injection H4 as <-.
    + rewrite row_vector_from_dim. destruct (_ =? 1); [|now left].
      destruct (row_safe m (st_heap st) (snd (dim (bm_layout b1)))) as [->|(h1 & r & -> & H1 & H2)]; [now left|].
      right. exists h1, r. splits; auto; now rewrite H2.
    + rewrite column_vector_from_dim. destruct (_ =? 1); [|now left].
      destruct (column_safe m (st_heap st) (fst (dim (bm_layout b0)))) as [->|(h1 & r & -> & H1 & H2)]; [now left|].
      right. exists h1, r. splits; auto; now rewrite H2.
Qed.

Lemma sound_extends : forall m (h h' : heap) x, extends h h' -> sound_matrix m h x -> sound_matrix m h' x.
Proof. intros m h h' x He (Hv & Ht). unfold sound_matrix. splits; auto. eapply valid_extends; eauto. Qed.

Lemma step_safe : forall kern m st (o : call T St), sound m st -> within_contract st o ->
  m = Checked \/ no_wrap_call st o ->
  exists st' r, step kern m st o = Ok (st', r) /\ sound m st'.
Proof.
  intros kern m st o Hs Ho Hm. assert (Hp := sound_placed m st Hs).
  assert (Hst : exists st' r, step kern m st o = Ok (st', r) /\
    exists new, st_mats st' = st_mats st ++ new /\ Forall (sound_matrix m (st_heap st')) new).
  { unfold step. destruct (exec kern m st o) as [r|] eqn:E.
    - destruct (exec_safe _ _ _ _ _ Hs Ho Hm E) as [->|(st' & res & -> & new & H1 & H2)].
      + exists st, RPanicked. split; auto. exists []. split; [now rewrite app_nil_r|constructor].
      + eauto 6.
    - exists st, RSkipped. split; auto. exists []. split; [now rewrite app_nil_r|constructor]. }
  destruct Hst as (st' & r & E & new & H1 & H2). exists st', r. split; auto.
  destruct (step_effect _ _ _ _ _ _ Hp E) as ((He & _) & _ & _).
  unfold sound. rewrite H1. apply Forall_app. split; auto.
  eapply Forall_impl; [|exact Hs]. intros x. now apply sound_extends.
Qed.

Lemma run_safe : forall kern m (os : list (call T St)) st, sound m st -> history_within_contract kern m st os ->
  m = Checked \/ no_wrap_history kern m st os ->
  exists st' rs, run kern m st os = Ok (st', rs) /\ sound m st'.
Proof.
  intros kern m os. induction os as [|o os IH]; intros st Hs Ho Hm; cbn [run].
  - eauto.
  - destruct Ho as [H1 H2].
    destruct (step_safe kern m st o Hs H1) as (st1 & r & E & Hs1).
    { destruct Hm as [|[Hm _]]; auto. }
    rewrite E. cbn [bind]. destruct (IH st1 Hs1 (H2 _ _ E)) as (st' & rs & E2 & Hs2).
    { destruct Hm as [|[_ Hm]]; eauto. }
    rewrite E2. cbn [bind]. eauto.
Qed.

Lemma safe_within : forall st (o : call T St), safe_call o -> within_contract st o.
Proof. intros st o H. destruct o; cbn [safe_call within_contract] in *; auto using dense_strides_fit; contradiction. Qed.

Lemma safe_history : forall kern m (os : list (call T St)) st, Forall safe_call os ->
  history_within_contract kern m st os.
Proof.
  intros kern m os. induction os as [|o os IH]; intros st H; cbn [history_within_contract]; auto.
  inversion H; subst. split; [now apply safe_within|]. intros st' r _. now apply IH.
Qed.

(** ** Exactly which histories of safe calls have undefined behaviour *)

Lemma chain_raw_fits : forall l r c, chain l -> cell l (r, c) < usize_mod ->
  convert_2d_raw Checked l r c = Ok (cell l (r, c)).
Proof.
  intros l r c Hl H. destruct l as [[A B] | [A B] | n | n | e s | e s | n s | n s | n]; cbn in Hl; try contradiction;
    cbn [cell true_stride fst snd] in *; cbn [convert_2d_raw];
    unfold row_major_2d_1d, column_major_2d_1d, strided_raw; cbn [fst snd].
  all: rewrite ?umul_ok by nia; cbn [bind]; rewrite ?uadd_ok by nia; cbn [bind]; rewrite ?umul_ok by nia; cbn [bind];
    rewrite ?uadd_ok by nia; f_equal; lia.
Qed.

Lemma chain_raw_bound : forall l r c a, chain l -> convert_2d_raw Checked l r c = Ok a -> a < usize_mod.
Proof.
  intros l r c a Hl E. destruct l as [[A B] | [A B] | n | n | e s | e s | n s | n s | n]; cbn in Hl; try contradiction;
    cbn [convert_2d_raw] in E; unfold row_major_2d_1d, column_major_2d_1d, strided_raw in E; cbn [fst snd] in E;
    inv_arith; lia.
Qed.

Lemma overshoot_cases : forall m st (o : call T St), sound m st -> safe_or_block o ->
  overshoots st o \/ within_contract st o \/ forall kern, exec kern Checked st o = None \/ exec kern Checked st o = Some Panic.
Proof.
  intros m st o Hs Ho. destruct o; try (right; left; now apply safe_within).
  cbn [exec]. unfold typed, when. destruct (lookup_block st mut x) as [b|] eqn:Eb; [|auto].
  destruct (is_dynamic (base_sizes b)) eqn:Ed; [|auto]. destruct (block_order (bm_layout b)) as [o|] eqn:Eo; [|auto].
  pose proof Eb as Hb. apply lookup_block_inv in Hb. pose proof Hb as Hx. apply lookup_base_inv in Hx.
  destruct (lookup_sound m st x _ Hs Hx) as (Hv & Ht). cbn [row_strided] in Ht.
  assert (Hc : chain (bm_layout b)) by (eapply row_strides_chain; eauto).
  destruct (nonempty_dec d) as [Hd|Hd]; [right; left; now left|].
  destruct (N.leb_spec (cell (bm_layout b) tl) (room b)) as [Hr|Hr].
  { right. left. right. intros b' E. rewrite Hb in E. now injection E as <-. }
  destruct (inside_dec (dim (bm_layout b)) tl d) as [Hi|Hi].
  2:{ right. right. intros kern. right. rewrite (block_outside_panics Checked mut b tl d o); auto. }
  destruct (N.ltb_spec (fst tl + fst d) usize_mod) as [H0|H0].
  2:{ right. right. intros kern. right. do 2 f_equal. unfold block. rewrite Eo. unfold uadd at 1.
      replace (fst tl + fst d <? usize_mod) with false by lia. reflexivity. }
  destruct (N.ltb_spec (snd tl + snd d) usize_mod) as [H1|H1].
  2:{ right. right. intros kern. right. do 2 f_equal. unfold block. rewrite Eo. rewrite uadd_ok by auto. cbn [bind].
      unfold uadd at 1. replace (snd tl + snd d <? usize_mod) with false by lia. reflexivity. }
  destruct (N.ltb_spec (cell (bm_layout b) tl) usize_mod) as [H2|H2].
  - left. exists b. splits; auto; [|congruence]. unfold is_dynamic in Ed.
    destruct (base_sizes b) as [[] []]; try discriminate Ed; reflexivity.
  - right. right. intros kern. right. do 2 f_equal. unfold block. rewrite Eo, !uadd_ok by auto. cbn [bind].
    destruct Hi as [Hi0 Hi1].
    replace ((_ <=? _) && (_ <=? _)) with true by lia. cbn [assert_ bind].
    destruct (convert_2d_raw Checked (bm_layout b) (fst tl) (snd tl)) as [a| |] eqn:E; cbn [bind]; auto.
    + exfalso. pose proof (chain_raw_bound _ _ _ _ Hc E) as B. apply chain_raw_checked in E; auto. destruct tl. cbn [fst snd] in E. lia.
    + now apply convert_2d_raw_not_ub in E.
Qed.

Lemma overshoot_ub : forall kern m st (o : call T St), sound m st -> overshoots st o -> step kern Checked st o = UB.
Proof.
  intros kern m st o Hs H. destruct o; cbn [overshoots] in H; try contradiction.
  destruct H as (b & Eb & Es & Eo & Hd & [Hi0 Hi1] & H0 & H1 & Hr & Hc).
  pose proof Eb as Hb. apply lookup_block_inv in Hb. pose proof Hb as Hx. apply lookup_base_inv in Hx.
  destruct (lookup_sound m st x _ Hs Hx) as (Hv & Ht). cbn [row_strided] in Ht.
  unfold step. cbn [exec]. unfold typed, when. rewrite Eb, Es. change (is_dynamic (Dynamic, Dynamic)) with true.
  destruct (block_order (bm_layout b)) as [o|] eqn:Eo'; [|congruence].
  assert (Hch : chain (bm_layout b)) by (eapply row_strides_chain; eauto).
  unfold block. rewrite Eo', !uadd_ok by auto. cbn [bind].
  replace ((_ <=? _) && (_ <=? _)) with true by lia. cbn [assert_ bind].
  destruct tl as [r c]. cbn [fst snd]. rewrite chain_raw_fits by auto. cbn [bind].
  rewrite ptr_add_ub; [reflexivity|]. unfold get_pointer, container_get_pointer. cbn [p_off p_region]. unfold room in Hr. lia.
Qed.

Lemma run_exact : forall kern (os : list (call T St)) st, sound Checked st -> Forall safe_or_block os ->
  (history_overshoots kern Checked st os /\ run kern Checked st os = UB) \/
  (~ history_overshoots kern Checked st os /\ exists st' rs, run kern Checked st os = Ok (st', rs)).
Proof.
  intros kern os. induction os as [|o os IH]; intros st Hs Ho; cbn [run history_overshoots]; [right; split; eauto|].
  inversion Ho as [|? ? H1 H2]; subst.
  assert (N1 : forall st1 r, step kern Checked st o = Ok (st1, r) -> ~ overshoots st o).
  { intros st1 r E F. rewrite (overshoot_ub kern Checked) in E by auto. discriminate. }
  destruct (overshoot_cases Checked st o Hs H1) as [Hv|Hv].
  { left. split; [now left|]. now rewrite (overshoot_ub kern Checked st o Hs Hv). }
  assert (S1 : exists st1 r, step kern Checked st o = Ok (st1, r) /\ sound Checked st1).
  { destruct Hv as [Hv|Hv]; [now apply step_safe; auto|]. unfold step.
    destruct (Hv kern) as [-> | ->]; eauto. }
  destruct S1 as (st1 & r & E & Hs1). specialize (N1 _ _ E). rewrite E. cbn [bind].
  destruct (IH st1 Hs1 H2) as [[H3 R]|[H3 (st' & rs & R)]]; rewrite R; cbn [bind].
  - left. split; auto.
  - right. split; [tauto|eauto].
Qed.

Lemma initial_sound : forall m, sound m (@initial T).
Proof. constructor. Qed.

End Safety.

(** ** The properties *)

Section Properties.
Context {T : Type} {SC : HScalar T} {St : Type}.

Lemma c38 : forall kern (os : list (call T St)), Forall safe_call os ->
  exists st rs, run kern Checked (@initial T) os = Ok (st, rs).
Proof.
  intros kern os H. destruct (run_safe kern Checked os initial (initial_sound _) (safe_history _ _ _ _ H) (or_introl eq_refl))
    as (st & rs & E & _). eauto.
Qed.

Lemma c39 : forall kern m (os : list (call T St)), Forall safe_call os ->
  no_wrap_history kern m (@initial T) os -> exists st rs, run kern m (@initial T) os = Ok (st, rs).
Proof.
  intros kern m os H Hm. destruct (run_safe kern m os initial (initial_sound _) (safe_history _ _ _ _ H) (or_intror Hm))
    as (st & rs & E & _). eauto.
Qed.

Lemma c38_exact : forall kern (os : list (call T St)), Forall safe_or_block os ->
  (run kern Checked (@initial T) os = UB <-> history_overshoots kern Checked (@initial T) os) /\
  (~ history_overshoots kern Checked (@initial T) os -> exists st rs, run kern Checked (@initial T) os = Ok (st, rs)).
Proof.
  intros kern os H. destruct (run_exact kern os initial (initial_sound _) H) as [[H1 H2]|[H1 (st & rs & H2)]]; rewrite H2.
  - tauto.
  - split; [|eauto]. split; [discriminate|tauto].
Qed.

(** Reads of every matrix in the table, after every history. *)
Lemma c38_reads : forall kern (os : list (call T St)) st rs, Forall safe_call os ->
  run kern Checked (@initial T) os = Ok (st, rs) ->
  forall n x, nth_error (st_mats st) n = Some x -> forall r c,
    (stored (mat_layout x) (r, c) -> returns_entry (get Checked (st_heap st) x r c) (entry (st_heap st) x (r, c))) /\
    (~ stored (mat_layout x) (r, c) -> panics (get Checked (st_heap st) x r c)).
Proof.
  intros kern os st rs H E n x Hx r c.
  destruct (run_safe kern Checked os initial (initial_sound _) (safe_history _ _ _ _ H) (or_introl eq_refl)) as (st' & rs' & E' & Hs).
  rewrite E in E'. injection E' as <- <-. destruct (lookup_sound _ _ _ _ Hs Hx) as (Hv & _). split; intros Hst.
  - now apply get_stored.
  - now apply get_not_stored.
Qed.

(** Unsafe calls within their contracts. *)
Lemma c45 : forall kern m (os : list (call T St)), history_within_contract kern m (@initial T) os ->
  m = Checked \/ no_wrap_history kern m (@initial T) os ->
  exists st rs, run kern m (@initial T) os = Ok (st, rs).
Proof.
  intros kern m os H Hm. destruct (run_safe kern m os initial (initial_sound _) H Hm) as (st & rs & E & _). eauto.
Qed.

Lemma c44 : forall (h : @heap T) b D s, base_valid h b -> bm_layout b = RowMajor D ->
  (interior D s -> exists four, split_in_four_mut Checked b s = Ok four /\
     forall k, base_valid h (pick four k) /\ dim (bm_layout (pick four k)) = quarter_dim D s k) /\
  (~ interior D s -> panics (split_in_four_mut Checked b s)).
Proof.
  intros h b D s Hv Hl. split; intros Hi.
  - destruct (split_ok Checked h b D s Hv Hl Hi) as [E Hq]. eexists. split; [exact E|]. intros k. split; auto.
    rewrite pick_quarters, block_view_dim, Hl. reflexivity.
  - eapply split_outside; eauto.
Qed.

End Properties.
