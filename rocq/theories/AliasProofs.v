(** * Proofs about the memory that live matrices share. *)

From Coq Require Import ZifyBool ZifyNat ZifyN.
From Verif Require Import Machine MachineFacts Layouts Memory Matrix MatMul Spec MatrixSpec ExprSpec ProductSpec.
From Verif Require Import LayoutFacts MemoryFacts AccessFacts AccessProofs ConstructorProofs BlockProofs.
From Verif Require Import ExprProofs ProductProofs Program HistorySpec HistoryProofs HistorySafety Borrow BorrowFacts BorrowProofs.
Local Open Scope N_scope.

Section Alias.
Context {T : Type} {SC : HScalar T} {St : Type}.
Variable kern : kernel T.
Notation heap := (@heap T).
Notation bstate := (bstate T).
Notation action := (action T St).

Lemma plain_state : forall m (acts : list action) bs rs, Forall no_pointers acts -> Forall no_split acts ->
  brun kern m (@binitial T) acts = Some (Ok (bs, rs)) -> binv bs.
Proof.
  intros m acts bs rs Hn Hs H.
  apply (gen_inv kern m binv plain (plain_inv_step kern m) acts binitial bs rs); [apply binitial_binv | now apply plain_all | exact H].
Qed.

Lemma well_state : forall m (acts : list action) bs rs, well_behaved kern m (@binitial T) acts ->
  brun kern m (@binitial T) acts = Some (Ok (bs, rs)) -> pinv m bs.
Proof.
  intros m acts bs rs W H.
  assert (STEP : forall bs (a : action) bs' r, pinv m bs -> step_ok m bs a -> bstep kern m bs a = Some (Ok (bs', r)) -> pinv m bs').
  { intros. eapply ok_pinv; eauto. }
  apply (gen_inv kern m (pinv m) (step_ok m) STEP acts binitial bs rs); [apply binitial_pinv | now apply well_all | exact H].
Qed.

Lemma plain_disjoint : forall m (acts : list action) bs rs, Forall no_pointers acts -> Forall no_split acts ->
  brun kern m (@binitial T) acts = Some (Ok (bs, rs)) ->
  forall x y v w q, usable bs x v -> usable bs y w -> x <> y -> is_writable v = true ->
    occupies v q -> occupies w q -> below (b_slots bs) x y \/ below (b_slots bs) y x.
Proof.
  intros m acts bs rs Hn Hs H x y v w q [Lx Ex] [Ly Ey] Hd Hw Ov Ow.
  destruct (plain_state _ _ _ _ Hn Hs H) as [I _].
  apply (inv_share _ _ _ I x y q); auto; [exists v | exists v | exists w]; auto.
Qed.

Lemma has_foot : forall m (bs : bstate) x w q, pinv m bs -> nth_error (st_mats (b_state bs)) x = Some w -> has_cell w q ->
  foot part_foot (st_mats (b_state bs)) (b_slots bs) x q.
Proof.
  intros m bs x w q (_ & S & _) E Hq. exists w. split; auto. unfold part_foot. destruct (is_part _ _); auto.
  eapply has_cell_occupies; eauto. eapply sound_valid; eauto.
Qed.

Lemma well_disjoint : forall m (acts : list action) bs rs, well_behaved kern m (@binitial T) acts ->
  brun kern m (@binitial T) acts = Some (Ok (bs, rs)) ->
  forall x y v w q, usable bs x v -> usable bs y w -> x <> y -> is_writable v = true ->
    has_cell v q -> has_cell w q -> below (b_slots bs) x y \/ below (b_slots bs) y x.
Proof.
  intros m acts bs rs W H x y v w q [Lx Ex] [Ly Ey] Hd Hw Ov Ow.
  pose proof (well_state _ _ _ _ W H) as PI. pose proof PI as (I & _).
  apply (inv_share _ _ _ I x y q); auto; [exists v | eapply has_foot | eapply has_foot]; eauto.
Qed.

(** The exclusive operand of a call shares no cell with the shared ones. *)
Lemma operands_apart : forall fp mats bt us bt' x z q, inv fp mats bt -> admit_uses bt us = Some bt' ->
  In (x, Shared) us -> In (z, Exclusive) us -> x <> z -> writer mats z ->
  foot (T := T) fp mats bt x q -> foot fp mats bt z q -> False.
Proof.
  intros fp mats bt us bt' x z q I Ha Hx Hz Hd Wz Fx Fz.
  destruct (admit_spec _ _ _ (inv_closed _ _ _ I) Ha) as (L & C & Hu & Hl & Hm).
  destruct (Hu x _ Hx) as [_ Kx]. assert (Lx : is_live bt' x = true) by (apply (Hl x Shared); auto; discriminate).
  assert (Lz : is_live bt' z = true) by (apply (Hl z Exclusive); auto; discriminate).
  pose proof (inv_later _ _ _ _ L C I) as I'.
  apply (written_unseen fp mats bt us bt' z x q); auto.
  intros B. apply Hd. symmetry. apply (later_below _ _ _ _ L) in B. eapply (writer_ends fp mats bt' x Shared z); eauto.
Qed.

Lemma no_conflict_exclusive : forall us x z a, no_conflict us = true -> In (x, a) us -> In (z, Exclusive) us ->
  a <> Exclusive -> x <> z.
Proof.
  intros us x z a. induction us as [|u us IH]; [intros _ []|]. cbn [no_conflict]. intros H Hx Hz Ha E.
  apply andb_prop in H. destruct H as [H1 H2]. rewrite forallb_forall in H1. subst z.
  destruct Hx as [->|Hx], Hz as [Hz|Hz].
  - congruence.
  - specialize (H1 _ Hz). cbn in H1. rewrite Nat.eqb_refl in H1. destruct a; discriminate H1.
  - subst u. specialize (H1 _ Hx). cbn in H1. rewrite Nat.eqb_refl in H1. discriminate H1.
  - apply IH; auto.
Qed.

Lemma admit_no_conflict : forall bt us bt', admit_uses bt us = Some bt' -> no_conflict us = true.
Proof. intros bt us bt' H. unfold admit_uses in H. cbv zeta in H. destruct (no_conflict us); [reflexivity|discriminate]. Qed.

Lemma c51 : forall m (acts : list action) bs rs, well_behaved kern m (@binitial T) acts ->
  brun kern m (@binitial T) acts = Some (Ok (bs, rs)) ->
  forall alpha x y beta z bs', bstep kern m bs (Do (CMatmul alpha x y beta z)) = Some (Ok (bs', RDone (T := T) (St := St))) ->
  exists a b c, usable bs x (MBase a) /\ usable bs y (MBase b) /\ usable bs z (MBase c) /\
    compatible (dim (bm_layout a)) (dim (bm_layout b)) (dim (bm_layout c)) /\
    no_overlap a c /\ no_overlap b c /\
    (computes kern ->
     true_strides (bm_layout a) -> true_strides (bm_layout b) -> true_strides (bm_layout c) -> no_aliasing (bm_layout c) ->
     forall A B C, entries_are (st_heap (b_state bs)) a A -> entries_are (st_heap (b_state bs)) b B ->
       entries_are (st_heap (b_state bs)) c C ->
       entries_are (st_heap (b_state bs')) c (product_entry (snd (dim (bm_layout a))) alpha A B beta C) /\
       entries_are (st_heap (b_state bs')) a A /\ entries_are (st_heap (b_state bs')) b B).
Proof.
  intros m acts bs rs W H alpha x y beta z bs' Hb.
  pose proof (well_state _ _ _ _ W H) as PI. pose proof PI as (I & S & _).
  apply bstep_inv in Hb. destruct Hb as [(o & bt & st' & Eo & Ha & Hs & ->)|(? & ? & Eo & _)]; [|discriminate Eo].
  injection Eo as <-. unfold step in Hs. cbn [exec] in Hs. unfold typed, when in Hs.
  destruct (lookup_base (b_state bs) x) as [a|] eqn:La; [|discriminate Hs].
  destruct (lookup_base (b_state bs) y) as [b|] eqn:Lb; [|discriminate Hs].
  destruct (lookup_mut (b_state bs) z) as [c|] eqn:Lc; [|discriminate Hs].
  destruct (matmul_typed a b c) eqn:Ht; [|discriminate Hs].
  destruct (matmul kern (st_heap (b_state bs)) alpha a b beta c) as [h'| |] eqn:Em; cbn in Hs; try discriminate Hs.
  injection Hs as <-.
  apply lookup_base_inv in La, Lb. apply lookup_mut_writable in Lc. destruct Lc as [Lc Wc].
  destruct (admit_spec _ _ _ (inv_closed _ _ _ I) Ha) as (_ & _ & Hu & _).
  cbn [uses] in Ha, Hu. pose proof (admit_no_conflict _ _ _ Ha) as Hn.
  set (us := [(x, Shared); (y, Shared); (z, Exclusive)]) in *.
  assert (Ix : In (x, Shared) us) by (left; reflexivity).
  assert (Iy : In (y, Shared) us) by (right; left; reflexivity).
  assert (Iz : In (z, Exclusive) us) by (right; right; left; reflexivity).
  assert (Dx : x <> z) by (eapply no_conflict_exclusive; eauto; discriminate).
  assert (Dy : y <> z) by (eapply no_conflict_exclusive; eauto; discriminate).
  assert (NO : forall u d, In (u, Shared) us -> u <> z -> lookup (b_state bs) u = Some (MBase d) -> strided_type (bm_layout d) = true ->
     strided_type (bm_layout c) = true -> no_overlap d c).
  { intros u d Hu' Hd Lu Sd Sc p q Hp Hq E.
    assert (IS : forall l p, strided_type l = true -> in_range (dim l) p -> stored l p).
    { intros l p' Hl Hp'. now apply strided_stored. }
    apply (operands_apart part_foot (st_mats (b_state bs)) (b_slots bs) us bt u z (entry_cell d p)); auto.
    - exists (MBase c). auto.
    - apply (has_foot m bs u (MBase d)); auto. exists p. auto.
    - apply (has_foot m bs z (MBase c)); auto. rewrite E. exists q. auto. }
  unfold matmul_typed in Ht. rewrite !andb_true_iff in Ht. destruct Ht as (((Sa & Sb) & Sc) & _).
  exists a, b, c.
  assert (CP : compatible (dim (bm_layout a)) (dim (bm_layout b)) (dim (bm_layout c))).
  { unfold matmul in Em. destruct (matmul_dims_ok _ _ _) eqn:E; [|discriminate Em]. now apply matmul_dims in E. }
  assert (Na : no_overlap a c) by (apply (NO x); auto).
  assert (Nb : no_overlap b c) by (apply (NO y); auto).
  assert (Va : base_valid (st_heap (b_state bs)) a) by exact (sound_valid _ _ _ _ S La).
  assert (Vb : base_valid (st_heap (b_state bs)) b) by exact (sound_valid _ _ _ _ S Lb).
  assert (Vc : base_valid (st_heap (b_state bs)) c) by exact (sound_valid _ _ _ _ S Lc).
  splits; auto.
  - split; auto. now apply (Hu x Shared).
  - split; auto. now apply (Hu y Shared).
  - split; auto. now apply (Hu z Exclusive).
  - intros Hk Ta Tb Tc Nc A B C EA EB EC. cbn [b_state st_heap].
    destruct (c32_exact kern (st_heap (b_state bs)) alpha a b beta c A B C) as (h1 & E1 & R); auto.
    destruct (c32 kern (st_heap (b_state bs)) alpha a b beta c A B C) as (h2 & sh & E2 & Ch & _); auto.
    assert (h1 = h') by congruence. assert (h2 = h') by congruence. subst h1 h2. splits; auto.
    + intros i j Hij. rewrite <- (EA i j Hij). apply Ch. intros (p & Hp & E). exact (Na _ _ Hij Hp E).
    + intros i j Hij. rewrite <- (EB i j Hij). apply Ch. intros (p & Hp & E). exact (Nb _ _ Hij Hp E).
Qed.

Lemma c51_plain : forall m (acts : list action) bs rs, Forall no_pointers acts -> Forall no_split acts ->
  brun kern m (@binitial T) acts = Some (Ok (bs, rs)) ->
  forall alpha x y beta z bs', bstep kern m bs (Do (CMatmul alpha x y beta z)) = Some (Ok (bs', RDone (T := T) (St := St))) ->
  exists a b c, usable bs x (MBase a) /\ usable bs y (MBase b) /\ usable bs z (MBase c) /\
    disjoint (c_region (bm_data a)) (c_region (bm_data c)) /\
    disjoint (c_region (bm_data b)) (c_region (bm_data c)).
Proof.
  intros m acts bs rs Hnp Hns H alpha x y beta z bs' Hb.
  destruct (plain_state _ _ _ _ Hnp Hns H) as (I & _).
  apply bstep_inv in Hb. destruct Hb as [(o & bt & st' & Eo & Ha & Hs & ->)|(? & ? & Eo & _)]; [|discriminate Eo].
  injection Eo as <-. unfold step in Hs. cbn [exec] in Hs. unfold typed, when in Hs.
  destruct (lookup_base (b_state bs) x) as [a|] eqn:La; [|discriminate Hs].
  destruct (lookup_base (b_state bs) y) as [b|] eqn:Lb; [|discriminate Hs].
  destruct (lookup_mut (b_state bs) z) as [c|] eqn:Lc; [|discriminate Hs].
  apply lookup_base_inv in La, Lb. apply lookup_mut_writable in Lc. destruct Lc as [Lc Wc].
  destruct (admit_spec _ _ _ (inv_closed _ _ _ I) Ha) as (_ & _ & Hu & _).
  cbn [uses] in Ha, Hu. pose proof (admit_no_conflict _ _ _ Ha) as Hn.
  set (us := [(x, Shared); (y, Shared); (z, Exclusive)]) in *.
  assert (Ix : In (x, Shared) us) by (left; reflexivity).
  assert (Iy : In (y, Shared) us) by (right; left; reflexivity).
  assert (Iz : In (z, Exclusive) us) by (right; right; left; reflexivity).
  assert (Dx : x <> z) by (eapply no_conflict_exclusive; eauto; discriminate).
  assert (Dy : y <> z) by (eapply no_conflict_exclusive; eauto; discriminate).
  assert (NO : forall u d, In (u, Shared) us -> u <> z -> lookup (b_state bs) u = Some (MBase d) ->
     disjoint (c_region (bm_data d)) (c_region (bm_data c))).
  { intros u d Hu' Hd Lu i j Hi Hj E.
    apply (operands_apart region_foot (st_mats (b_state bs)) (b_slots bs) us bt u z (cell_of_region (c_region (bm_data d)) i)); auto.
    - exists (MBase c). auto.
    - exists (MBase d). split; auto. cbn. lia.
    - exists (MBase c). split; auto. rewrite E. cbn. lia. }
  exists a, b, c. splits; eauto; split; auto; [now apply (Hu x Shared) | now apply (Hu y Shared) | now apply (Hu z Exclusive)].
Qed.
End Alias.
