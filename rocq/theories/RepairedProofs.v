(** * RepairedProofs: proofs of C58. *)

From Coq Require Import Lia ZifyBool ZifyNat ZifyN.
From Verif Require Import Machine MachineFacts Layouts Memory Matrix MatMul Spec MatrixSpec ExprSpec ProductSpec AlgebraSpec BlockedSpec Repaired.
From Verif Require Import LayoutFacts LayoutProofs MemoryFacts AccessFacts AccessProofs BlockProofs ProductProofs AlgebraProofs TestProofs BlockedProofs.
Local Open Scope N_scope.

Lemma repaired_is : forall l, strided_type l = true -> repaired_stride l = Ok (true_stride l).
Proof. intros []; cbn; try discriminate; reflexivity. Qed.

Lemma c58_stride : forall m l, is_strided_layout l = true -> fits l -> (has_strides l = true -> addressable l) ->
  exists s, repaired_stride l = Ok s /\ stride_contract (convert_2d_raw m l) (dim l) s.
Proof.
  intros m l Hl Hf Ha. exists (true_stride l). split.
  - apply repaired_is. destruct l; cbn in *; try discriminate; reflexivity.
  - apply true_stride_contract; auto. destruct (has_strides l) eqn:E; auto. now apply dense_addressable.
Qed.

(** ** Blocks *)

Lemma blockable_order : forall l, blockable l -> block_order l = Some (order_of l).
Proof. intros l H. unfold order_of. destruct l; cbn in *; try contradiction; reflexivity. Qed.

Lemma blockable_type : forall l, blockable l -> strided_type l = true.
Proof. intros []; cbn; try contradiction; reflexivity. Qed.

Lemma blockable_cell : forall l p, blockable l -> cell l p = fst p * fst (true_stride l) + snd p * snd (true_stride l).
Proof. intros []; cbn; try contradiction; reflexivity. Qed.

Lemma blockable_no_aliasing : forall l, blockable l -> no_aliasing l.
Proof. intros l H Hs. destruct l; cbn in *; try contradiction; try discriminate; exact H. Qed.

Lemma blockable_separated : forall l, blockable l -> nonempty (dim l) -> separated (dim l) (true_stride l).
Proof.
  intros l H [H0 H1]. destruct l as [[A B] | [A B] | n | n | D s | D s | n s | n s | n]; cbn [blockable dim true_stride fst snd] in *; try contradiction; auto;
    unfold separated; cbn [fst snd]; lia.
Qed.

Lemma separated_span : forall D s d, separated D s -> nonempty d -> fst d <= fst D -> snd d <= snd D -> fst d * snd d <= span d s.
Proof.
  intros [A B] [s0 s1] [a b] H [Ha Hb] HA HB. unfold separated, span in *. cbn [fst snd] in *. destruct H as [[H0 H1] | [H0 H1]].
  - assert (b <= s0) by nia. assert ((a - 1) * b <= (a - 1) * s0) by (apply N.mul_le_mono_l; lia).
    assert (b - 1 <= (b - 1) * s1) by nia. nia.
  - assert (a <= s1) by nia. assert ((b - 1) * a <= (b - 1) * s1) by (apply N.mul_le_mono_l; lia).
    assert (a - 1 <= (a - 1) * s0) by nia. nia.
Qed.

Lemma separated_less : forall D s d, separated D s -> fst d <= fst D -> snd d <= snd D -> separated d s.
Proof.
  intros [A B] [s0 s1] [a b] H HA HB. unfold separated in *. cbn [fst snd] in *. destruct H as [[H0 H1] | [H0 H1]]; [left|right]; (split; auto);
    (eapply N.le_lt_trans; [|exact H1]); apply N.mul_le_mono_l; lia.
Qed.

(** The block that results. *)
Definition true_view (mut : bool) (b : base_matrix) (tl d : N * N) : base_matrix :=
  view mut (order_of (bm_layout b)) (c_region (bm_data b)) (cell (bm_layout b) tl) d (true_stride (bm_layout b)).

Lemma true_view_dim : forall mut b tl d, dim (bm_layout (true_view mut b tl d)) = d.
Proof. intros. apply strided_layout_dim. Qed.

Lemma true_view_window : forall mut b tl d, blockable (bm_layout b) -> window b (true_view mut b tl d) tl d.
Proof.
  intros mut b tl d H. split; [apply true_view_dim|]. split.
  - unfold true_view, view, order_of. cbn [bm_layout]. destruct (bm_layout b); cbn in *; try contradiction; reflexivity.
  - intros p _. unfold true_view. rewrite view_entry_cell. unfold entry_cell, cell_of_region, shift.
    rewrite !blockable_cell by auto. cbn [fst snd]. f_equal. lia.
Qed.

Lemma true_view_blockable : forall mut b tl d, blockable (bm_layout b) -> nonempty d -> inside (dim (bm_layout b)) tl d ->
  blockable (bm_layout (true_view mut b tl d)).
Proof.
  intros mut b tl d H [Hd0 Hd1] [H0 H1].
  assert (S : separated d (true_stride (bm_layout b))).
  { apply separated_less with (dim (bm_layout b)); try lia. apply blockable_separated; auto. split; lia. }
  unfold true_view, view. cbn [bm_layout]. now destruct (order_of (bm_layout b)).
Qed.

Section Repaired.
Context {T : Type} {SC : HScalar T}.
Notation heap := (@heap T).

Lemma repaired_block_ok : forall m (h : heap) mut b tl d, base_valid h b -> blockable (bm_layout b) ->
  nonempty d -> inside (dim (bm_layout b)) tl d ->
  block_with repaired_stride m mut b tl d = Ok (true_view mut b tl d) /\ base_valid h (true_view mut b tl d).
Proof.
  intros m h mut b [t0 t1] d Hv Hc Hd Hi. pose proof Hd as [Ha Hb]. pose proof Hi as [Hi0 Hi1]. cbn [fst snd] in Hi0, Hi1.
  pose proof Hv as (Hs & Hsm & Hcells). set (l := bm_layout b) in *.
  assert (HD : nonempty (dim l)) by (split; lia).
  assert (Hn : fst d * snd d <= span d (true_stride l)).
  { apply separated_span with (dim l); try lia; auto. now apply blockable_separated. }
  assert (Hlast : cell l (fst (dim l) - 1, snd (dim l) - 1) < r_len (c_region (bm_data b))).
  { apply Hcells, strided_stored; [now apply blockable_type|]. split; cbn [fst snd]; lia. }
  assert (Hsp : cell l (t0, t1) + span d (true_stride l) <= cell l (fst (dim l) - 1, snd (dim l) - 1) + 1).
  { rewrite !blockable_cell by auto. cbn [fst snd]. unfold span.
    assert (t0 * fst (true_stride l) + (fst d - 1) * fst (true_stride l) <= (fst (dim l) - 1) * fst (true_stride l)).
    { rewrite <- N.mul_add_distr_r. apply N.mul_le_mono_r. lia. }
    assert (t1 * snd (true_stride l) + (snd d - 1) * snd (true_stride l) <= (snd (dim l) - 1) * snd (true_stride l)).
    { rewrite <- N.mul_add_distr_r. apply N.mul_le_mono_r. lia. } lia. }
  unfold block_with. fold l. rewrite blockable_order by auto.
  assert (Hdim : fst (dim l) < usize_mod /\ snd (dim l) < usize_mod).
  { unfold nonempty in HD. destruct l as [[A B] | [A B] | n | n | [A B] [s0 s1] | [A B] [s0 s1] | n s | n s | n];
      cbn [small blockable dim fst snd] in *; try contradiction; split; nia. }
  cbn [fst snd].
  rewrite uadd_ok by lia. cbn [bind]. rewrite uadd_ok by lia. cbn [bind].
  replace ((t0 + fst d <=? fst (dim l)) && (t1 + snd d <=? snd (dim l))) with true by lia. cbn [assert_ bind].
  assert (Ad : convert_2d_raw m l t0 t1 = Ok (cell l (t0, t1))).
  { apply base_address with h; auto. apply strided_stored; [now apply blockable_type|]. fold l. split; cbn [fst snd]; lia. }
  rewrite Ad. cbn [bind].
  rewrite ptr_add_ok by (unfold get_pointer, container_get_pointer; cbn [p_off p_region]; lia).
  cbn [bind]. rewrite repaired_is by now apply blockable_type. cbn [bind].
  unfold get_pointer, container_get_pointer. cbn [p_off p_region]. rewrite N.add_0_l.
  apply (from_pointer_strided_ok m h mut (order_of l)
    (mkPointer (c_region (bm_data b)) (cell l (t0, t1))) d (true_stride l)); cbn [p_region p_off]; auto. lia.
Qed.

Lemma c58_block : forall m (h : heap) mut a tl d, base_valid h a -> blockable (bm_layout a) ->
  nonempty d -> inside (dim (bm_layout a)) tl d ->
  exists b, block_with repaired_stride m mut a tl d = Ok b /\ base_valid h b /\ blockable (bm_layout b) /\
    container_is_mut (bm_data b) = mut /\ window a b tl d.
Proof.
  intros m h mut a tl d Hv Hb Hd Hi. destruct (repaired_block_ok m h mut a tl d) as [E V]; auto.
  exists (true_view mut a tl d). splits; auto.
  - now apply true_view_blockable.
  - apply slice_container_mut_is.
  - now apply true_view_window.
Qed.

Lemma c58_nested : forall m (h : heap) mut1 mut2 mut3 a o1 d1 o2 d2, base_valid h a -> blockable (bm_layout a) ->
  nonempty d1 -> inside (dim (bm_layout a)) o1 d1 -> nonempty d2 -> inside d1 o2 d2 ->
  exists b1 b2 b3,
    block_with repaired_stride m mut1 a o1 d1 = Ok b1 /\ block_with repaired_stride m mut2 b1 o2 d2 = Ok b2 /\
    block_with repaired_stride m mut3 a (shift o1 o2) d2 = Ok b3 /\
    base_valid h b2 /\ base_valid h b3 /\ dim (bm_layout b2) = d2 /\ dim (bm_layout b3) = d2 /\
    forall p, in_range d2 p -> entry_cell b2 p = entry_cell b3 p.
Proof.
  intros m h mut1 mut2 mut3 a o1 d1 o2 d2 Hv Hb Hd1 Hi1 Hd2 Hi2.
  destruct (c58_block m h mut1 a o1 d1) as (b1 & E1 & V1 & B1 & _ & D1 & _ & W1); auto.
  destruct (c58_block m h mut2 b1 o2 d2) as (b2 & E2 & V2 & B2 & _ & D2 & _ & W2); auto; [now rewrite D1|].
  destruct (c58_block m h mut3 a (shift o1 o2) d2) as (b3 & E3 & V3 & B3 & _ & D3 & _ & W3); auto.
  { destruct Hi1, Hi2. split; cbn [fst snd shift]; lia. }
  exists b1, b2, b3. splits; auto. intros p Hp. rewrite W2, W3 by auto. rewrite W1.
  - unfold shift. cbn [fst snd]. now rewrite !N.add_assoc.
  - destruct Hp, Hi2. split; cbn [fst snd shift]; lia.
Qed.

(** ** Products *)

Lemma matmul_with_unfold : forall st kern (h : heap) alpha a b beta c sa sb sc,
  st (bm_layout a) = Ok sa -> st (bm_layout b) = Ok sb -> st (bm_layout c) = Ok sc ->
  compatible (dim (bm_layout a)) (dim (bm_layout b)) (dim (bm_layout c)) ->
  matmul_with st kern h alpha a b beta c =
  let sh := mkShape (fst (dim (bm_layout a))) (snd (dim (bm_layout a))) (snd (dim (bm_layout b)))
                    (isizes sa) (isizes sb) (isizes sc) in
  for_range (fst (dim (bm_layout c))) (fun i h =>
    for_range (snd (dim (bm_layout c))) (fun j h =>
      gemm_entry kern sh alpha (get_pointer a) (get_pointer b) beta (get_pointer c) i j h) h) h.
Proof.
  intros st kern h alpha a b beta c sa sb sc Ha Hb Hc Hd. unfold matmul_with.
  pose proof Hd as (D1 & D2 & D3). apply matmul_dims in Hd. rewrite Hd. cbn [assert_ bind].
  rewrite Ha, Hb, Hc. cbn [bind]. unfold gemm. rewrite D2, D3. reflexivity.
Qed.

Lemma repaired_told : forall (h : heap) b, base_valid h b -> strided_type (bm_layout b) = true ->
  told_ok h b (true_stride (bm_layout b)) /\
  forall p, told_cell b (true_stride (bm_layout b)) p = entry_cell b p.
Proof.
  intros h b (Hs & Hsm & Hc) Ht.
  assert (X : forall p, told (true_stride (bm_layout b)) p = cell (bm_layout b) p).
  { intros p. destruct (bm_layout b); cbn in Ht; try discriminate; reflexivity. }
  split.
  - split; auto. intros p Hp. rewrite X. apply Hc. now apply strided_stored.
  - intros p. unfold told_cell, entry_cell. now rewrite X.
Qed.

Lemma c58_matmul : forall kern (h : heap) alpha a b beta c A B C, computes kern ->
  base_valid h a -> base_valid h b -> base_valid h c ->
  strided_type (bm_layout a) = true -> strided_type (bm_layout b) = true -> strided_type (bm_layout c) = true ->
  no_aliasing (bm_layout c) -> no_overlap a c -> no_overlap b c ->
  compatible (dim (bm_layout a)) (dim (bm_layout b)) (dim (bm_layout c)) ->
  entries_are h a A -> entries_are h b B -> entries_are h c C ->
  exists h', matmul_with repaired_stride kern h alpha a b beta c = Ok h' /\
    entries_are h' c (product_entry (snd (dim (bm_layout a))) alpha A B beta C) /\
    changes_only (fun q => exists p, in_range (dim (bm_layout c)) p /\ q = entry_cell c p) h h'.
Proof.
  intros kern h alpha a b beta c A B C Hk Va Vb Vc Ha Hb Hc Nc Na Nb Hd EA EB EC.
  destruct (repaired_told h a Va Ha) as (Ta & Ca). destruct (repaired_told h b Vb Hb) as (Tb & Cb).
  destruct (repaired_told h c Vc Hc) as (Tc & Cc).
  set (sa := true_stride (bm_layout a)) in *. set (sb := true_stride (bm_layout b)) in *. set (sc := true_stride (bm_layout c)) in *.
  apply (told_entries_true h a sa) in EA; auto. apply (told_entries_true h b sb) in EB; auto.
  apply (told_entries_true h c sc) in EC; auto.
  destruct (gemm_told kern h alpha a b beta c sa sb sc A B C) as (h' & E & Ch & Eh); auto.
  - intros p q Hp Hq. rewrite Ca, Cc by auto. now apply Na.
  - intros p q Hp Hq. rewrite Cb, Cc by auto. now apply Nb.
  - intros p q Hp Hq. rewrite !Cc by auto. apply entry_cell_in; auto. now apply distinct_no_aliasing.
  - exists h'. splits.
    + rewrite (matmul_with_unfold _ kern h alpha a b beta c sa sb sc) by (auto; now apply repaired_is). exact E.
    + apply (told_entries_true h' c sc) in Eh; auto. eapply entries_are_ext; [|exact Eh]. intros i j. now apply computes_entry.
    + eapply changes_only_weaken; [|exact Ch]. intros q (p & Hp & ->). exists p. split; auto.
Qed.

(** ** Block by block *)

Lemma blocked_with_same : forall kern m alpha a b c ts (h : heap),
  blocked_with stride kern m h alpha a b c ts = blocked kern m h alpha a b c ts.
Proof.
  intros kern m alpha a b c ts. induction ts as [|[t beta] ts IH]; intros h; [reflexivity|].
  cbn [blocked_with blocked].
  change (@block_with stride) with block. change (@matmul_with T stride) with (@matmul T).
  do 3 (destruct (block _ _ _ _ _); cbn [bind]; auto). destruct (matmul _ _ _ _ _ _ _); cbn [bind]; auto.
Qed.

Lemma true_view_entries : forall (h : heap) mut b tl d F, blockable (bm_layout b) -> inside (dim (bm_layout b)) tl d ->
  entries_are h b F -> entries_are h (true_view mut b tl d) (fun i j => F (fst tl + i) (snd tl + j)).
Proof.
  intros h mut b tl d F Hl [H0 H1] E i j Hp. rewrite true_view_dim in Hp.
  destruct (true_view_window mut b tl d Hl) as (_ & _ & W). unfold base_entry. rewrite (W _ Hp). apply E.
  destruct Hp as [Hp0 Hp1]. split; cbn [fst snd shift] in *; lia.
Qed.

Lemma true_view_apart : forall mut mut' a c tl d tl' d', blockable (bm_layout a) -> blockable (bm_layout c) ->
  inside (dim (bm_layout a)) tl d -> inside (dim (bm_layout c)) tl' d' -> no_overlap a c ->
  no_overlap (true_view mut a tl d) (true_view mut' c tl' d').
Proof.
  intros mut mut' a c tl d tl' d' Ha Hc [I0 I1] [J0 J1] N p q Hp Hq. rewrite true_view_dim in Hp, Hq.
  destruct (true_view_window mut a tl d Ha) as (_ & _ & W), (true_view_window mut' c tl' d' Hc) as (_ & _ & W').
  rewrite (W _ Hp), (W' _ Hq). destruct Hp, Hq. apply N; split; cbn [fst snd shift] in *; lia.
Qed.

Lemma c58_steps : forall kern m alpha (a b c : base_matrix) A B ts (h : heap) C, computes kern ->
  base_valid h a -> base_valid h b -> base_valid h c ->
  blockable (bm_layout a) -> blockable (bm_layout b) -> blockable (bm_layout c) ->
  no_overlap a c -> no_overlap b c ->
  Forall (fun tb => tile_inside a b c (fst tb)) ts ->
  entries_are h a A -> entries_are h b B -> entries_are h c C ->
  exists h', blocked_with repaired_stride kern m h alpha a b c ts = Ok h' /\ entries_are h' c (tile_entries alpha A B ts C) /\
    changes_only (cells_of c) h h'.
Proof.
  intros kern m alpha a b c A B ts. induction ts as [|[t beta] ts IH];
    intros h C Hk Va Vb Vc Da Db Dc Na Nb Hf EA EB EC; cbn [blocked_with].
  - exists h. splits; auto. apply changes_only_refl.
  - inversion Hf as [|? ? Ht Hts]; subst. cbn [fst] in Ht.
    destruct Ht as ((Na0 & Ia) & (Nb0 & Ib) & (Nc0 & Ic)).
    set (tla := (fst (t_rows t), fst (t_inner t))) in *. set (da := (snd (t_rows t), snd (t_inner t))) in *.
    set (tlb := (fst (t_inner t), fst (t_cols t))) in *. set (db := (snd (t_inner t), snd (t_cols t))) in *.
    set (tlc := (fst (t_rows t), fst (t_cols t))) in *. set (dc := (snd (t_rows t), snd (t_cols t))) in *.
    destruct (repaired_block_ok m h false a tla da) as (Xa & Ya); auto.
    destruct (repaired_block_ok m h false b tlb db) as (Xb & Yb); auto.
    destruct (repaired_block_ok m h true c tlc dc) as (Xc & Yc); auto.
    rewrite Xa, Xb, Xc. cbn [bind].
    destruct (c58_matmul kern h alpha (true_view false a tla da) (true_view false b tlb db) beta (true_view true c tlc dc)
      (fun i j => A (fst tla + i) (snd tla + j)) (fun i j => B (fst tlb + i) (snd tlb + j))
      (fun i j => C (fst tlc + i) (snd tlc + j))) as (h1 & E1 & R1 & Ch1);
      auto using true_view_entries, true_view_apart, blockable_type, true_view_blockable, blockable_no_aliasing.
    { rewrite !true_view_dim. repeat split. }
    rewrite E1. cbn [bind].
    destruct (true_view_window true c tlc dc Dc) as (_ & _ & W).
    assert (Ch : changes_only (cells_of c) h h1).
    { eapply changes_only_weaken; [|exact Ch1]. intros q (p & Hp & ->). rewrite true_view_dim in Hp. rewrite (W _ Hp).
      exists (shift tlc p). split; auto. destruct Hp as [P0 P1], Ic as [I0 I1]. split; cbn [fst snd shift] in *; lia. }
    assert (Ext : extends h h1) by apply Ch.
    destruct (IH h1 (tile_entry alpha A B (t, beta) C)) as (h2 & E2 & R2 & Ch2);
      eauto using base_valid_extends, entries_kept.
    { intros i j Hp. cbn [tile_entry]. unfold updates. destruct (_ && _) eqn:U.
      - apply andb_true_iff in U. destruct U as [U0 U1]. apply range_in in U0, U1.
        assert (Hq : in_range dc (i - fst tlc, j - snd tlc)) by (split; cbn [fst snd tlc dc]; lia).
        pose proof (R1 (i - fst tlc) (j - snd tlc)) as R. rewrite true_view_dim in R. specialize (R Hq).
        unfold base_entry in R. rewrite (W _ Hq) in R. unfold shift in R. cbn [fst snd tlc] in R.
        replace (fst (t_rows t) + (i - fst (t_rows t))) with i in R by lia.
        replace (fst (t_cols t) + (j - fst (t_cols t))) with j in R by lia.
        unfold base_entry. rewrite R. unfold product_entry. rewrite true_view_dim. cbn [fst snd tla tlb tlc da].
        replace (fst (t_rows t) + (i - fst (t_rows t))) with i by lia.
        replace (fst (t_cols t) + (j - fst (t_cols t))) with j by lia. reflexivity.
      - rewrite <- (EC i j Hp). unfold base_entry. apply Ch1. intros (p & Hq & E). rewrite true_view_dim in Hq.
        rewrite (W _ Hq) in E. rewrite <- surjective_pairing in E.
        apply entry_cell_in in E; auto using distinct_no_aliasing, blockable_no_aliasing, blockable_type.
        + injection E as E0 E1'. destruct Hq as [Q0 Q1]. cbn [fst snd tlc dc] in *.
          assert (within_range (t_rows t) i = true) by (apply range_in; lia).
          assert (within_range (t_cols t) j = true) by (apply range_in; lia).
          rewrite H, H0 in U. discriminate U.
        + destruct Hq as [Q0 Q1], Ic as [I0 I1]. split; cbn [fst snd shift] in *; lia. }
    exists h2. splits; auto. eapply changes_only_weaken; [|eapply changes_only_trans; [exact Ch|exact Ch2]]. intros q [|]; auto.
Qed.

Lemma c58_inner : semiring_laws (T := T) ->
  forall kern m alpha (a b c : base_matrix) A B ts (h : heap) C, computes kern ->
  base_valid h a -> base_valid h b -> base_valid h c ->
  blockable (bm_layout a) -> blockable (bm_layout b) -> blockable (bm_layout c) ->
  no_overlap a c -> no_overlap b c ->
  Forall (fun tb => tile_inside a b c (fst tb) /\ snd tb = sone) ts ->
  (forall i j l, in_range (dim (bm_layout c)) (i, j) -> l < snd (dim (bm_layout a)) -> times ts i j l = 1%nat) ->
  entries_are h a A -> entries_are h b B -> entries_are h c C ->
  exists h', blocked_with repaired_stride kern m h alpha a b c ts = Ok h' /\
    entries_are h' c (product_entry (snd (dim (bm_layout a))) alpha A B sone C) /\
    changes_only (cells_of c) h h'.
Proof.
  intros L kern m alpha a b c A B ts h C Hk Va Vb Vc Da Db Dc Na Nb Hf Hone EA EB EC.
  destruct (c58_steps kern m alpha a b c A B ts h C) as (h' & E & R & Ch); auto.
  { eapply Forall_impl; [|exact Hf]. intros tb H. apply H. }
  exists h'. splits; auto. intros i j Hp. rewrite (R i j Hp). f_equal.
  rewrite (tile_entries_sum L alpha A B (snd (dim (bm_layout a)))).
  - unfold product_entry. rewrite (mul_one L). do 2 f_equal. apply sum_below_eq. intros l Hl.
    rewrite (Hone i j l Hp) by lia. cbn [often Nat.iter]. now apply add_zero_r.
  - eapply Forall_impl; [|exact Hf]. intros tb (((_ & [_ I]) & _) & H2). split; auto.
Qed.
End Repaired.
