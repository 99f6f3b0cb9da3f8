(** * Proofs of the access properties C05, C09 - C12, C16. *)

From Coq Require Import ZifyBool ZifyNat ZifyN.
From Verif Require Import Machine MachineFacts Layouts Memory Matrix Spec MatrixSpec.
From Verif Require Import LayoutFacts LayoutProofs MemoryFacts AccessFacts.
Local Open Scope N_scope.

Section AccessProofs.
Context {T : Type} {SC : HScalar T}.
Notation heap := (@heap T).
Implicit Types (h : heap) (x y : matrix T) (b : base_matrix).

(** Numbers and positions. *)
Lemma pos_number : forall l r c, stored l (r, c) -> pos l (number l (r, c)) = (r, c).
Proof. intros l r c H. rewrite <- idx_number by auto. now apply idx_pos. Qed.

Lemma number_pos : forall l i, i < entry_count l -> number l (pos l i) = i.
Proof.
  intros l i H. destruct (pos_spec l i H) as [Hp E]. destruct (pos l i) as [r c].
  cbn [fst snd] in E. now rewrite <- idx_number.
Qed.

Lemma number_bound : forall l r c, stored l (r, c) -> number l (r, c) < entry_count l.
Proof. intros l r c H. rewrite <- idx_number by auto. now apply idx_bound. Qed.

Lemma c05_get : forall m h x r c i, valid h x -> stored (mat_layout x) (r, c) ->
  convert_2d_1d m (mat_layout x) r c = Ok i -> get1d m h x i = get m h x r c.
Proof.
  intros m h x r c i Hv Hp E. rewrite convert_2d_1d_ok in E by eauto using valid_small. inv_ok.
  pose proof (idx_bound _ _ _ Hp) as Hi.
  destruct (get_stored m h x r c Hv Hp) as (v & -> & Ev).
  destruct (get1d_stored m h x _ Hv Hi) as (w & -> & Ew).
  rewrite idx_pos in Ew by auto. congruence.
Qed.

Lemma c05_set : forall m h x b r c i v, valid h x -> writes_to x = Some b ->
  stored (mat_layout x) (r, c) -> convert_2d_1d m (mat_layout x) r c = Ok i ->
  set1d m h x i v = set m h x r c v.
Proof.
  intros m h x b r c i v Hv Hw Hp E. rewrite convert_2d_1d_ok in E by eauto using valid_small. inv_ok.
  pose proof (idx_bound _ _ _ Hp) as Hi.
  erewrite set1d_stored by eauto. now rewrite idx_pos.
Qed.

(** C09 *)
Lemma c09_get : forall m h x r c, valid h x ->
  (stored (mat_layout x) (r, c) -> returns_entry (get m h x r c) (entry h x (r, c))) /\
  (panics (get m h x r c) <-> ~ stored (mat_layout x) (r, c)).
Proof.
  intros m h x r c Hv. split; [intros; now apply get_stored|]. split.
  - intros E Hp. destruct (get_stored m h x r c Hv Hp) as (v & Ev & _).
    unfold panics in E. congruence.
  - apply get_not_stored; auto.
Qed.

Lemma c09_get1d : forall m h x i, valid h x ->
  (i < entry_count (mat_layout x) ->
     exists p, stored (mat_layout x) p /\ number (mat_layout x) p = i /\
               returns_entry (get1d m h x i) (entry h x p)) /\
  (panics (get1d m h x i) <-> entry_count (mat_layout x) <= i).
Proof.
  intros m h x i Hv. split.
  - intros Hi. exists (pos (mat_layout x) i). split; [now apply pos_spec|].
    split; [now apply number_pos|]. now apply get1d_stored.
  - split; [|now apply get1d_not_stored].
    intros E. destruct (N.le_gt_cases (entry_count (mat_layout x)) i) as [|Hi]; auto.
    destruct (get1d_stored m h x i Hv Hi) as (v & Ev & _). unfold panics in E. congruence.
Qed.

Lemma c09_get_mut : forall m h x b r c, valid h x -> writes_to x = Some b ->
  (stored (mat_layout x) (r, c) ->
     get_mut m x r c = Ok (mkPlace (fst (entry_cell b (r, c))) (snd (entry_cell b (r, c))))) /\
  (panics (get_mut m x r c) <-> ~ stored (mat_layout x) (r, c)).
Proof.
  intros m h x b r c Hv Hw. split; [intros; now apply get_mut_stored with h|]. split.
  - intros E Hp. rewrite (get_mut_stored m h x b) in E by auto. discriminate.
  - intros Hp. destruct (stored_dec (mat_layout x) (r, c)); [contradiction|].
    unfold panics, get_mut.
    destruct (assert_dimension_cases r c (dim (mat_layout x))) as [[Hr ->] | [Hr ->]]; auto.
    cbn [bind]. rewrite (get_unchecked_mut_base m x b) by auto. unfold base_get_unchecked_mut.
    rewrite (writes_to_layout x b Hw) in *. now rewrite below_diagonal_panics.
Qed.

Lemma c09_get1d_mut : forall m h x b i, valid h x -> writes_to x = Some b ->
  (i < entry_count (mat_layout x) ->
     exists p, stored (mat_layout x) p /\ number (mat_layout x) p = i /\
               get1d_mut m x i = Ok (mkPlace (fst (entry_cell b p)) (snd (entry_cell b p)))) /\
  (panics (get1d_mut m x i) <-> entry_count (mat_layout x) <= i).
Proof.
  intros m h x b i Hv Hw. split.
  - intros Hi. exists (pos (mat_layout x) i). split; [now apply pos_spec|].
    split; [now apply number_pos|]. now apply get1d_mut_stored with h.
  - split; [|now apply get1d_mut_not_stored with h].
    intros E. destruct (N.le_gt_cases (entry_count (mat_layout x)) i) as [|Hi]; auto.
    rewrite (get1d_mut_stored m h x b) in E by auto. discriminate.
Qed.

(** C10 *)
Lemma from_data_inv : forall m rs cs c l b, from_data m rs cs c l = Ok b ->
  b = mkBase c l rs cs /\ exists n, number_of_elements m l = Ok n /\ n <= r_len (c_region c).
Proof.
  intros m rs cs c l b H. unfold from_data, container_number_of_elements in H. inv_ok.
  split; auto. eexists. split; eauto. lia.
Qed.

Lemma dense_cell_bound : forall l p, has_strides l = false -> stored l p ->
  cell l p < entry_count l.
Proof.
  intros l [r c] Hl Hp. rewrite <- addr_cell by auto. pose proof (idx_bound l r c Hp).
  destruct l; cbn in Hl; try discriminate; auto.
Qed.

Lemma dense_base_valid : forall h c l rs cs, slice_ok h (c_region c) -> has_strides l = false ->
  small l -> entry_count l <= r_len (c_region c) -> base_valid h (mkBase c l rs cs).
Proof.
  intros h c l rs cs Hs Hl Hc Hn. split; [|split]; cbn [bm_data bm_layout]; auto.
  intros p Hp. pose proof (dense_cell_bound l p Hl Hp). lia.
Qed.

Lemma from_data_valid : forall h rs cs c l b, slice_ok h (c_region c) -> has_strides l = false ->
  from_data Checked rs cs c l = Ok b -> base_valid h b.
Proof.
  intros h rs cs c l b Hs Hl H. apply from_data_inv in H as (-> & n & En & Hn).
  apply number_of_elements_checked in En as [-> Hc]. now apply dense_base_valid.
Qed.

Lemma base_valid_no_ub : forall m h b, base_valid h b -> no_access_ub m h b.
Proof.
  intros m h b Hb r col i v.
  assert (Hv : valid h (MBase b)) by exact Hb.
  split; [|split].
  - destruct (stored_dec (bm_layout b) (r, col)) as [Hp | Hp].
    + destruct (get_stored m h (MBase b) r col Hv Hp) as (w & -> & _). discriminate.
    + now rewrite get_not_stored.
  - destruct (N.le_gt_cases (entry_count (bm_layout b)) i) as [Hi | Hi].
    + now rewrite get1d_not_stored.
    + destruct (get1d_stored m h (MBase b) i Hv Hi) as (w & -> & _). discriminate.
  - intros Hm. assert (Hw : writes_to (@MBase T b) = Some b) by (cbn; now rewrite Hm).
    destruct (c09_get_mut m h _ b r col Hv Hw) as [G1 G2].
    destruct (c09_get1d_mut m h _ b i Hv Hw) as [G3 G4].
    destruct (stored_dec (bm_layout b) (r, col)) as [Hp | Hp];
    destruct (N.le_gt_cases (entry_count (bm_layout b)) i) as [Hi | Hi].
    + destruct (set_stored m h _ b r col v Hv Hw Hp) as (h' & -> & _).
      rewrite (set1d_not_stored m h) by auto. rewrite G1 by auto. apply G4 in Hi. rewrite Hi.
      repeat split; discriminate.
    + destruct (set_stored m h _ b r col v Hv Hw Hp) as (h' & -> & _).
      rewrite (set1d_stored m h _ b) by auto.
      destruct (pos_spec _ _ Hi) as [Hq _]. cbn [mat_layout] in *.
      destruct (set_stored m h _ b _ _ v Hv Hw ltac:(rewrite <- surjective_pairing; exact Hq))
        as (h'' & -> & _).
      rewrite G1 by auto. destruct (G3 Hi) as (p & _ & _ & ->). repeat split; discriminate.
    + destruct (set_not_stored m h _ b r col v Hv Hw Hp) as [-> ->].
      rewrite (set1d_not_stored m h) by auto. apply G4 in Hi. rewrite Hi.
      repeat split; discriminate.
    + destruct (set_not_stored m h _ b r col v Hv Hw Hp) as [-> ->].
      rewrite (set1d_stored m h _ b) by auto.
      destruct (pos_spec _ _ Hi) as [Hq _]. cbn [mat_layout] in *.
      destruct (set_stored m h _ b _ _ v Hv Hw ltac:(rewrite <- surjective_pairing; exact Hq))
        as (h'' & -> & _).
      destruct (G3 Hi) as (p & _ & _ & ->). repeat split; discriminate.
Qed.

Lemma c10 : forall h rs cs c l b, slice_ok h (c_region c) -> has_strides l = false ->
  from_data Checked rs cs c l = Ok b -> forall m, no_access_ub m h b.
Proof. intros. apply base_valid_no_ub. eauto using from_data_valid. Qed.

(** With strides it is enough that the last entry lies in the container. *)
Lemma strided_base_valid : forall h c l rs cs, slice_ok h (c_region c) -> has_strides l = true ->
  small l -> cell l (fst (dim l) - 1, snd (dim l) - 1) < r_len (c_region c) ->
  base_valid h (mkBase c l rs cs).
Proof.
  intros h c l rs cs Hs Hl Hc Hn. split; [|split]; cbn [bm_data bm_layout]; auto.
  intros [r cc] [[Hr Hcc] _]. eapply N.le_lt_trans; [|exact Hn].
  destruct l as [d | d | n | n | [a e] [s0 s1] | [a e] [s0 s1] | n s | n s | n];
    cbn in Hl; try discriminate; cbn [cell true_stride dim fst snd] in *; nia.
Qed.

Lemma c10_strided : forall h rs cs c l b, slice_ok h (c_region c) -> has_strides l = true ->
  cell l (fst (dim l) - 1, snd (dim l) - 1) < r_len (c_region c) ->
  from_data Checked rs cs c l = Ok b -> forall m, no_access_ub m h b.
Proof.
  intros h rs cs c l b Hs Hl Hn H m. apply base_valid_no_ub.
  apply from_data_inv in H as (-> & n & En & _).
  apply number_of_elements_checked in En as [-> Hc]. now apply strided_base_valid.
Qed.

(** ... and necessary, if there are entries and addresses do not overflow. *)
Lemma c10_strided_needed : forall h rs cs c l b m, slice_ok h (c_region c) -> has_strides l = true ->
  from_data m rs cs c l = Ok b ->
  1 <= fst (dim l) -> 1 <= snd (dim l) ->
  r_len (c_region c) <= cell l (fst (dim l) - 1, snd (dim l) - 1) ->
  cell l (fst (dim l) - 1, snd (dim l) - 1) < usize_mod ->
  get m h (MBase b) (fst (dim l) - 1) (snd (dim l) - 1) = UB.
Proof.
  intros h rs cs c l b m Hs Hl H Hr Hc Hbig Hu. apply from_data_inv in H as (-> & n & En & _).
  assert (Hp : stored l (fst (dim l) - 1, snd (dim l) - 1)).
  { split; [split; cbn [fst snd]; lia|]. destruct l; cbn in *; discriminate. }
  unfold get. cbn [mat_layout bm_layout]. rewrite assert_dimension_ok by apply Hp. cbn [bind].
  cbn [get_unchecked]. unfold base_get_unchecked. cbn [bm_layout bm_data].
  rewrite convert_2d_raw_strided; auto; [|now rewrite addr_cell].
  cbn [bind]. rewrite addr_cell by auto. unfold container_get_unchecked, region_read.
  apply N.ltb_ge in Hbig. now rewrite Hbig.
Qed.

(** C11 *)
Lemma attempt_spec : forall m x b h w, valid h x -> writes_to x = Some b ->
  distinct_cells (mat_layout x) ->
  exists h', attempt m x h w = Ok h' /\ extends h h' /\
    changes_only (fun q => exists p, stored (mat_layout x) p /\ written_at (mat_layout x) p w <> None /\
                                     q = entry_cell b p) h h' /\
    forall p, stored (mat_layout x) p ->
      entry h' x p = match written_at (mat_layout x) p w with Some v => Some v | None => entry h x p end.
Proof.
  intros m x b h w Hv Hw Hd. set (l := mat_layout x) in *.
  assert (Hl : l = bm_layout b) by (apply writes_to_layout; auto).
  pose proof (writes_to_valid h x b Hw Hv) as Hb.
  assert (Hset : forall r c v, stored l (r, c) ->
    exists h', set m h x r c v = Ok h' /\ extends h h' /\
      changes_only (fun q => q = entry_cell b (r, c)) h h' /\
      forall p, stored l p -> entry h' x p = if (fst p =? r) && (snd p =? c) then Some v else entry h x p).
  { intros r c v Hp. destruct (set_stored m h x b r c v Hv Hw Hp) as (h' & E & Eh & [Hc _]).
    exists h'. split; auto. split; [subst; apply extends_hset|]. split.
    - exact Hc.
    - intros p Hq. rewrite !(writes_to_entry _ x b) by auto. subst h'. rewrite Hl in *.
      rewrite base_entry_hset; auto. }
  destruct w as [r c v | i v]; unfold attempt; cbn [written_at].
  - destruct (stored_dec l (r, c)) as [Hp | Hp].
    + destruct (Hset r c v Hp) as (h' & -> & He & Hc & Hf). exists h'. split; auto. split; auto.
      split; [|intros p Hq; rewrite Hf by auto; now destruct (_ && _)].
      destruct Hc as (L & X & F). split; [|split]; auto. intros a i Hq. apply F. intros Eq.
      apply Hq. exists (r, c). cbn [fst snd]. rewrite !N.eqb_refl. split; [assumption|]. split; [discriminate | assumption].
    + destruct (set_not_stored m h x b r c v Hv Hw Hp) as [-> _].
      exists h. split; auto. split; [apply extends_refl|]. split; [repeat split; auto using extends_refl|].
      intros [r' c'] Hq. cbn [fst snd]. destruct ((r' =? r) && (c' =? c)) eqn:E; auto.
      assert (r' = r) by lia. assert (c' = c) by lia. subst. contradiction.
  - destruct (N.le_gt_cases (entry_count l) i) as [Hi | Hi].
    + rewrite (set1d_not_stored m h) by auto.
      exists h. split; auto. split; [apply extends_refl|]. split; [repeat split; auto using extends_refl|].
      intros [r' c'] Hq. pose proof (number_bound l r' c' Hq).
      destruct (number l (r', c') =? i) eqn:E; auto. lia.
    + rewrite (set1d_stored m h x b) by auto. fold l. destruct (pos_spec l i Hi) as [Hp _].
      pose proof (number_pos l i Hi) as Hn.
      destruct (pos l i) as [r c]. cbn [fst snd] in *.
      destruct (Hset r c v Hp) as (h' & -> & He & Hc & Hf). exists h'. split; auto. split; auto. split.
      * destruct Hc as (L & X & F). split; [|split]; auto. intros a j Hq. apply F. intros Eq.
        apply Hq. exists (r, c). rewrite Hn, N.eqb_refl. split; [assumption|]. split; [discriminate | assumption].
      * intros [r' c'] Hq. rewrite Hf by auto. cbn [fst snd].
        destruct ((r' =? r) && (c' =? c)) eqn:E.
        -- assert (r' = r) by lia. assert (c' = c) by lia. subst r' c'.
           now rewrite Hn, N.eqb_refl.
        -- destruct (number l (r', c') =? i) eqn:En; auto. apply N.eqb_eq in En.
           pose proof (pos_number l _ _ Hq) as E1. pose proof (pos_number l _ _ Hp) as E2.
           rewrite En in E1. rewrite Hn in E2. rewrite E1 in E2. injection E2 as -> ->. lia.
Qed.

Lemma changes_only_trans : forall (P Q : nat * N -> Prop) h1 h2 h3,
  changes_only P h1 h2 -> changes_only Q h2 h3 -> changes_only (fun q => P q \/ Q q) h1 h3.
Proof.
  intros P Q h1 h2 h3 (L1 & X1 & F1) (L2 & X2 & F2). split; [congruence|]. split.
  - now apply extends_trans with h2.
  - intros a i H. rewrite F2, F1; auto.
Qed.

Lemma changes_only_weaken : forall (P Q : nat * N -> Prop) h1 h2,
  (forall q, P q -> Q q) -> changes_only P h1 h2 -> changes_only Q h1 h2.
Proof. intros P Q h1 h2 H (L & X & F). split; [|split]; auto. Qed.

Lemma changes_only_refl : forall (P : nat * N -> Prop) h, changes_only P h h.
Proof. intros P h. split; [|split]; auto using extends_refl. Qed.

Lemma c11 : forall m x b ws h, valid h x -> writes_to x = Some b -> no_aliasing (mat_layout x) ->
  exists h', attempt_all m x h ws = Ok h' /\
    (forall p, stored (mat_layout x) p ->
      entry h' x p =
      match last_write (mat_layout x) ws p with Some v => Some v | None => entry h x p end) /\
    changes_only (fun q => exists p, stored (mat_layout x) p /\
                                     last_write (mat_layout x) ws p <> None /\ q = entry_cell b p) h h'.
Proof.
  intros m x b ws. induction ws as [|w ws IH]; intros h Hv Hw Hd; cbn [attempt_all last_write].
  - exists h. split; auto. split; auto. apply changes_only_refl.
  - destruct (attempt_spec m x b h w Hv Hw (distinct_no_aliasing _ Hd)) as (h1 & -> & He & Hc & Hf).
    cbn [bind]. destruct (IH h1) as (h2 & E & Hg & Hc2); auto.
    { now apply valid_extends with h. }
    exists h2. split; auto. split.
    + intros p Hp. rewrite Hg by auto. destruct (last_write _ ws p); auto.
    + apply changes_only_trans with (1 := Hc) in Hc2. eapply changes_only_weaken; [|exact Hc2].
      intros q [(p & Hp & Hne & ->) | (p & Hp & Hne & ->)]; exists p;
        (split; [assumption|]); (split; [|reflexivity]);
        destruct (last_write (mat_layout x) ws p); congruence.
Qed.

(** C12 *)
Lemma c12 : forall m h x b r c v h', valid h x -> writes_to x = Some b ->
  set m h x r c v = Ok h' ->
  one_cell_written h h' (fst (entry_cell b (r, c))) (snd (entry_cell b (r, c))) v.
Proof.
  intros m h x b r c v h' Hv Hw E. destruct (stored_dec (mat_layout x) (r, c)) as [Hp | Hp].
  - destruct (set_stored m h x b r c v Hv Hw Hp) as (h2 & E2 & _ & Ho).
    rewrite E in E2. inv_ok. auto.
  - destruct (set_not_stored m h x b r c v Hv Hw Hp) as [E2 _]. rewrite E in E2. discriminate.
Qed.

Lemma c12_1d : forall m h x b i v h', valid h x -> writes_to x = Some b ->
  set1d m h x i v = Ok h' ->
  exists p, stored (mat_layout x) p /\ number (mat_layout x) p = i /\
    one_cell_written h h' (fst (entry_cell b p)) (snd (entry_cell b p)) v.
Proof.
  intros m h x b i v h' Hv Hw E.
  destruct (N.le_gt_cases (entry_count (mat_layout x)) i) as [Hi | Hi].
  - rewrite (set1d_not_stored m h) in E by auto. discriminate.
  - rewrite (set1d_stored m h x b) in E by auto.
    exists (pos (mat_layout x) i). split; [now apply pos_spec|]. split; [now apply number_pos|].
    apply (c12 m h x b _ _ v h' Hv Hw) in E. now rewrite <- surjective_pairing in E.
Qed.

(** C16 *)
Definition slice_of (r : region) (first last : N) : region :=
  mkRegion (r_alloc r) (r_lo r + first) (last - first).

Lemma get_slice_ok : forall b first last,
  first < last -> last <= r_len (c_region (bm_data b)) ->
  get_slice b first last = Ok (slice_of (c_region (bm_data b)) first last).
Proof.
  intros b first last H1 H2. unfold get_slice, container_get_slice, container_number_of_elements.
  replace (first <? last) with true by lia. replace (last <=? r_len (c_region (bm_data b))) with true by lia.
  cbn [assert_ bind]. rewrite ptr_add_ok by (cbn [container_get_pointer p_off p_region]; lia).
  cbn [bind container_get_pointer p_off p_region].
  rewrite from_raw_parts_ok by (cbn [p_off p_region]; lia). reflexivity.
Qed.

Lemma get_slice_panic : forall b first last,
  ~ (first < last /\ last <= r_len (c_region (bm_data b))) -> get_slice b first last = Panic.
Proof.
  intros b first last H. unfold get_slice, container_get_slice, container_number_of_elements.
  destruct (N.ltb_spec first last); cbn [assert_ bind]; auto.
  destruct (N.leb_spec last (r_len (c_region (bm_data b)))); cbn [assert_ bind]; auto. exfalso; auto.
Qed.

Lemma get_slice_mut_eq : forall b first last, get_slice_mut b first last = get_slice b first last.
Proof.
  intros b first last.
  destruct (N.ltb_spec first last) as [H1|H1]; destruct (N.leb_spec last (r_len (c_region (bm_data b)))) as [H2|H2].
  - rewrite get_slice_ok by auto.
    unfold get_slice_mut, container_get_slice_mut, container_number_of_elements.
    replace (first <? last) with true by lia. replace (last <=? r_len (c_region (bm_data b))) with true by lia.
    replace (first <? r_len (c_region (bm_data b))) with true by lia.
    cbn [assert_ bind]. rewrite ptr_add_ok by (cbn [container_get_pointer p_off p_region]; lia).
    cbn [bind container_get_pointer p_off p_region].
    rewrite from_raw_parts_ok by (cbn [p_off p_region]; lia). reflexivity.
  - rewrite get_slice_panic by lia. unfold get_slice_mut, container_get_slice_mut, container_number_of_elements.
    replace (first <? last) with true by lia. replace (last <=? r_len (c_region (bm_data b))) with false by lia.
    cbn [assert_ bind]. now destruct (first <? _).
  - rewrite get_slice_panic by lia. unfold get_slice_mut, container_get_slice_mut, container_number_of_elements.
    now replace (first <? last) with false by lia.
  - rewrite get_slice_panic by lia. unfold get_slice_mut, container_get_slice_mut, container_number_of_elements.
    now replace (first <? last) with false by lia.
Qed.

Lemma c16 : forall h b first last, region_ok h (c_region (bm_data b)) ->
  (panics (get_slice b first last) <->
     ~ (first < last /\ last <= r_len (c_region (bm_data b)))) /\
  (panics (get_slice_mut b first last) <->
     ~ (first < last /\ last <= r_len (c_region (bm_data b)))) /\
  (first < last /\ last <= r_len (c_region (bm_data b)) ->
   exists r, get_slice b first last = Ok r /\ get_slice_mut b first last = Ok r /\
     r_len r = last - first /\
     (forall k, k < last - first ->
        cell_of_region r k = cell_of_region (c_region (bm_data b)) (first + k) /\
        returns_entry (region_read h r k)
          (hget h (r_alloc (c_region (bm_data b))) (r_lo (c_region (bm_data b)) + (first + k)))) /\
     (forall k v, k < last - first ->
        exists p h', region_place r k = Ok p /\ place_write h p v = Ok h' /\
          one_cell_written h h' (r_alloc (c_region (bm_data b)))
            (r_lo (c_region (bm_data b)) + (first + k)) v)).
Proof.
  intros h b first last Hr.
  assert (Hpan : panics (get_slice b first last) <->
     ~ (first < last /\ last <= r_len (c_region (bm_data b)))).
  { split; [|apply get_slice_panic]. intros E [H1 H2]. rewrite get_slice_ok in E by auto. discriminate. }
  split; [exact Hpan|]. split; [now rewrite get_slice_mut_eq|].
  intros [H1 H2]. exists (slice_of (c_region (bm_data b)) first last).
  rewrite get_slice_mut_eq, get_slice_ok by auto. split; auto. split; auto. split; auto.
  set (r := c_region (bm_data b)) in *.
  assert (Hs : forall k, k < last - first -> exists v, region_read h (slice_of r first last) k = Ok v /\
            hget h (r_alloc r) (r_lo r + (first + k)) = Some v).
  { intros k Hk. destruct (region_read_ok h (slice_of r first last) k) as (v & E & Eg).
    - apply region_ok_sub; auto. lia.
    - cbn [slice_of r_len]. lia.
    - exists v. split; auto. rewrite <- Eg. unfold slice_of. cbn [r_alloc r_lo]. f_equal. lia. }
  split.
  - intros k Hk. split.
    + unfold cell_of_region, slice_of. cbn [r_alloc r_lo]. f_equal. lia.
    + destruct (Hs k Hk) as (v & E1 & E2). exists v. auto.
  - intros k v Hk. destruct (Hs k Hk) as (w & _ & Ew).
    exists (mkPlace (r_alloc r) (r_lo r + (first + k))), (hset h (r_alloc r) (r_lo r + (first + k)) v).
    split; [|split; [|split]].
    + rewrite region_place_ok by (cbn [slice_of r_len]; lia). unfold slice_of. cbn [r_alloc r_lo].
      do 2 f_equal. lia.
    + now apply place_write_ok with w.
    + apply hset_changes_only.
    + now apply hget_hset_same with w.
Qed.

End AccessProofs.
