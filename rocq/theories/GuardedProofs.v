(** * GuardedProofs: with four checks and a truthful [stride] every history without [unsafe]
    calls is memory safe and does not depend on the build (C63). *)

From Coq Require Import Lia ZArith ZifyBool ZifyNat ZifyN.
From Verif Require Import Machine Layouts Memory Matrix MatMul MachineFacts Spec LayoutFacts LayoutProofs
  MemoryFacts MatrixSpec AccessFacts AccessProofs ConstructorProofs BlockProofs ExprSpec ExprProofs
  ProductSpec ProductProofs Program HistorySpec ModeProofs HistoryProofs HistorySafety ModeSafety
  Abstract Repaired RepairedProofs RepairedHistory RepairedHistoryProofs Guarded.
Local Open Scope N_scope.

Section GuardedProofs.
Context {T : Type} {SC : HScalar T} {St : Type}.
Notation heap := (@heap T).
Variable kern : kernel T.

(** ** The invariant *)

Definition strides_apart (l : layout) : Prop :=
  match l with
  | ArbitraryStrideRowMajor d s | ArbitraryStrideColumnMajor d s => separated d s
  | _ => True
  end.

Fixpoint leaves_apart (x : matrix T) : Prop :=
  match x with
  | MBase b => strides_apart (bm_layout b)
  | MRef x | MRefMut x | MScalarMult x _ => leaves_apart x
  | MAddition x y _ => leaves_apart x /\ leaves_apart y
  end.

Definition good_matrix (h : heap) (x : matrix T) : Prop := valid h x /\ leaves_apart x.
Definition good (st : state T) : Prop := Forall (good_matrix (st_heap st)) (st_mats st).

Lemma good_extends : forall (h h' : heap) x, extends h h' -> good_matrix h x -> good_matrix h' x.
Proof. intros h h' x He (Hv & Ht). split; auto. eapply valid_extends; eauto. Qed.

Lemma good_placed : forall st, good st -> all_placed st.
Proof. intros st H. eapply Forall_impl; [|exact H]. intros x (Hv & _). now apply valid_placed. Qed.

Lemma lookup_good : forall st n x, good st -> lookup st n = Some x -> good_matrix (st_heap st) x.
Proof. intros st n x H E. unfold good in H. rewrite Forall_forall in H. apply H. eapply nth_error_In. exact E. Qed.

Lemma base_good : forall st n b, good st -> lookup_base st n = Some b ->
  base_valid (st_heap st) b /\ strides_apart (bm_layout b).
Proof. intros st n b H E. apply lookup_base_inv in E. exact (lookup_good st n _ H E). Qed.

Lemma mut_good : forall st n b, good st -> lookup_mut st n = Some b ->
  base_valid (st_heap st) b /\ strides_apart (bm_layout b).
Proof. intros st n b H E. apply lookup_mut_inv in E. destruct E as [E _]. now apply (base_good st n). Qed.

Lemma block_good : forall st mut n b, good st -> lookup_block st mut n = Some b ->
  base_valid (st_heap st) b /\ strides_apart (bm_layout b).
Proof. intros st mut n b H E. apply lookup_block_inv in E. now apply (base_good st n). Qed.

Lemma dense_apart : forall l, has_strides l = false -> strides_apart l.
Proof. intros []; cbn; auto; discriminate. Qed.

Lemma apart_blockable : forall l o, strides_apart l -> block_order l = Some o -> blockable l.
Proof. intros []; cbn; auto; discriminate. Qed.

Lemma count_fits_small : forall l, count_fits l = true <-> small l.
Proof. intros []; cbn [count_fits small]; split; auto; lia. Qed.

Lemma strides_in_spec : forall l n, strides_in l n = true ->
  strides_apart l /\ (has_strides l = true -> forall p, stored l p -> cell l p < n).
Proof.
  intros l n H. destruct l as [d | d | k | k | [a b] [s t] | [a b] [s t] | k s | k s | k];
    cbn [strides_in strides_apart has_strides fst snd] in *; try (split; [exact Logic.I|discriminate]).
  1, 2: apply andb_true_iff in H; destruct H as [H1 H2]; split;
    [ unfold separated; cbn [fst snd]; apply orb_true_iff in H1; rewrite !andb_true_iff, !N.leb_le, !N.ltb_lt in H1; exact H1
    | intros _ [p q] [[H3 H4] _]; cbn [dim cell true_stride fst snd] in *;
      assert (p * s <= (a - 1) * s) by (apply N.mul_le_mono_r; lia);
      assert (q * t <= (b - 1) * t) by (apply N.mul_le_mono_r; lia);
      rewrite !orb_true_iff, !N.eqb_eq, N.ltb_lt in H2;
      set (u := (a - 1) * s) in *; set (w := (b - 1) * t) in *; clearbody u w; clear H1; lia ].
  1, 2: split; [exact Logic.I|]; intros _ [p q] [[H1 H2] _]; cbn [dim cell true_stride fst snd] in *;
    try assert (p * s <= (k - 1) * s) by (apply N.mul_le_mono_r; lia);
    try assert (q * s <= (k - 1) * s) by (apply N.mul_le_mono_r; lia);
    rewrite orb_true_iff, N.eqb_eq, N.ltb_lt in H;
    set (u := (k - 1) * s) in *; clearbody u; lia.
Qed.

(** ** The functions *)

Lemma from_data_guarded_good : forall m (h : heap) rs cs c l, slice_ok h (c_region c) ->
  from_data_guarded m rs cs c l = Panic \/
  exists b, from_data_guarded m rs cs c l = Ok b /\ good_matrix h (MBase b).
Proof.
  intros m h rs cs c l Hs. unfold from_data_guarded.
  destruct (count_fits l && strides_in l (r_len (c_region c))) eqn:E; cbn [assert_ bind]; [|now left].
  apply andb_true_iff in E. destruct E as [E1 E2]. apply count_fits_small in E1. apply strides_in_spec in E2.
  destruct E2 as [E2 E3]. destruct (from_data m rs cs c l) as [b| |] eqn:Eb; [|now left|now apply from_data_not_ub in Eb].
  right. exists b. split; auto. apply from_data_inv in Eb. destruct Eb as (-> & n & En & Hn). split; cbn [leaves_apart bm_layout]; auto.
  cbn [valid]. destruct (has_strides l) eqn:El.
  - split; [exact Hs|]. split; [exact E1|]. now apply E3.
  - apply dense_base_valid; auto. rewrite number_of_elements_ok in En by auto. congruence.
Qed.

Lemma from_data_guarded_same : forall rs cs c l, same (fun m => from_data_guarded m rs cs c l).
Proof.
  intros rs cs c l m. unfold from_data_guarded.
  destruct (count_fits l && strides_in l (r_len (c_region c))) eqn:E; cbn [assert_ bind]; [|reflexivity].
  apply andb_true_iff in E. destruct E as [E _]. apply count_fits_small in E. now apply same_from_data.
Qed.

Lemma zeros_guarded_good : forall m (h : heap) k rows cols,
  zeros_guarded m h k rows cols = Panic \/
  exists h' b, zeros_guarded m h k rows cols = Ok (h', b) /\ fresh_zeros h h' b /\
    has_strides (bm_layout b) = false /\ from_dimension k (rows, cols) = Ok (bm_layout b).
Proof.
  intros m h k rows cols. unfold zeros_guarded.
  destruct (from_dimension k (rows, cols)) as [l| |] eqn:El; [|now left|now apply from_dimension_not_ub in El].
  cbn [bind]. destruct (count_fits l) eqn:E; cbn [assert_ bind]; [|now left]. apply count_fits_small in E.
  rewrite <- El. apply zeros_safe. right. intros l' El'. congruence.
Qed.

Lemma zeros_guarded_same : forall (h : heap) k rows cols, same (fun m => zeros_guarded m h k rows cols).
Proof.
  intros h k rows cols m. unfold zeros_guarded.
  destruct (from_dimension k (rows, cols)) as [l| |] eqn:El; cbn [bind]; auto.
  destruct (count_fits l) eqn:E; cbn [assert_ bind]; auto. apply count_fits_small in E.
  apply same_zeros. intros l' El'. congruence.
Qed.

Lemma block_guarded_good : forall m (h : heap) mut b tl d o, base_valid h b -> strides_apart (bm_layout b) ->
  block_order (bm_layout b) = Some o ->
  block_guarded m mut b tl d = Panic \/
  block_guarded m mut b tl d = Ok (true_view mut b tl d) /\ good_matrix h (MBase (true_view mut b tl d)).
Proof.
  intros m h mut b tl d o Hv Ha Ho. unfold block_guarded.
  match goal with |- context [assert_ ?x] => destruct x eqn:E end; cbn [assert_ bind]; [right|now left].
  assert (Hd : nonempty d) by (unfold nonempty; lia). assert (Hi : inside (dim (bm_layout b)) tl d) by (unfold inside; lia).
  pose proof (apart_blockable _ _ Ha Ho) as Hb.
  destruct (repaired_block_ok m h mut b tl d Hv Hb Hd Hi) as [-> Hv']. split; auto. split; auto.
  pose proof (true_view_blockable mut b tl d Hb Hd Hi) as Hb'. cbn [leaves_apart].
  destruct (bm_layout (true_view mut b tl d)); cbn in *; auto.
Qed.

Lemma block_guarded_same : forall (h : heap) mut b tl d o, base_valid h b -> strides_apart (bm_layout b) ->
  block_order (bm_layout b) = Some o -> same (fun m => block_guarded m mut b tl d).
Proof.
  intros h mut b tl d o Hv Ha Ho m. unfold block_guarded.
  match goal with |- context [assert_ ?x] => destruct x eqn:E end; cbn [assert_ bind]; auto.
  assert (Hd : nonempty d) by (unfold nonempty; lia). assert (Hi : inside (dim (bm_layout b)) tl d) by (unfold inside; lia).
  pose proof (apart_blockable _ _ Ha Ho) as Hb.
  destruct (repaired_block_ok m h mut b tl d Hv Hb Hd Hi) as [-> _].
  now destruct (repaired_block_ok Checked h mut b tl d Hv Hb Hd Hi) as [-> _].
Qed.

Lemma split_guarded_cases : forall m (h : heap) b D at_, base_valid h b -> bm_layout b = RowMajor D ->
  ~ interior D at_ /\ split_guarded m b at_ = Panic \/
  interior D at_ /\ split_guarded m b at_ = Ok (quarters b at_) /\
    forall k, good_matrix h (MBase (pick (quarters b at_) k)).
Proof.
  intros m h b D at_ Hv Hl. unfold split_guarded. rewrite Hl. cbn [dim].
  match goal with |- context [assert_ ?x] => destruct x eqn:E end; cbn [assert_ bind]; [right|left].
  2:{ split; auto. unfold interior. lia. }
  assert (Hi : interior D at_) by (unfold interior; lia). split; auto.
  destruct (split_ok m h b D at_ Hv Hl Hi) as [-> Hq]. split; auto. intros k. split; [apply Hq|].
  rewrite pick_quarters. destruct (quarter_inside D at_ k Hi) as [H1 H2].
  cbn [leaves_apart]. unfold block_view, view, order_of, told_stride. rewrite Hl. cbn [bm_layout block_order strided_layout strides_apart dim].
  destruct H1, H2. left. cbn [fst snd]. lia.
Qed.

(** Products. *)
Lemma matmul_with_good : forall (h : heap) alpha a b beta c,
  base_valid h a -> base_valid h b -> base_valid h c ->
  strided_type (bm_layout a) = true -> strided_type (bm_layout b) = true -> strided_type (bm_layout c) = true ->
  matmul_with repaired_stride kern h alpha a b beta c = Panic \/
  exists h', matmul_with repaired_stride kern h alpha a b beta c = Ok h' /\ extends h h'.
Proof.
  intros h alpha a b beta c Va Vb Vc Sa Sb Sc.
  destruct (compatible_dec (dim (bm_layout a)) (dim (bm_layout b)) (dim (bm_layout c))) as [Hc|Hc].
  2:{ left. unfold matmul_with. destruct (matmul_dims_ok _ _ _) eqn:E; [|reflexivity]. apply matmul_dims in E. contradiction. }
  right. destruct (repaired_told h a Va Sa) as (Ta & _). destruct (repaired_told h b Vb Sb) as (Tb & _).
  destruct (repaired_told h c Vc Sc) as (Tc & _).
  set (sa := true_stride (bm_layout a)) in *. set (sb := true_stride (bm_layout b)) in *. set (sc := true_stride (bm_layout c)) in *.
  rewrite (matmul_with_unfold _ kern h alpha a b beta c sa sb sc) by (auto; now apply repaired_is).
  destruct (for_range_inv _ (fun _ h' => changes_only (told_cells c sc) h h')
    (fun i h => for_range (snd (dim (bm_layout c))) (fun j h => gemm_entry kern
       (mkShape (fst (dim (bm_layout a))) (snd (dim (bm_layout a))) (snd (dim (bm_layout b))) (isizes sa) (isizes sb) (isizes sc))
       alpha (get_pointer a) (get_pointer b) beta (get_pointer c) i j h) h) (fst (dim (bm_layout c))) h) as (h' & E & C);
    [|apply changes_only_refl|exists h'; split; [exact E|apply C]].
  intros i h1 Hi C1.
  apply (for_range_inv _ (fun _ h' => changes_only (told_cells c sc) h h')); [|auto].
  intros j h2 Hj C2.
  assert (Hx : extends h h2) by apply C2.
  assert (Ta2 : told_ok h2 a sa) by now apply told_ok_extends with h.
  assert (Tb2 : told_ok h2 b sb) by now apply told_ok_extends with h.
  assert (Tc2 : told_ok h2 c sc) by now apply told_ok_extends with h.
  destruct (told_entries_exist h2 a sa Ta2) as (A & EA). destruct (told_entries_exist h2 b sb Tb2) as (B & EB).
  destruct (told_entries_exist h2 c sc Tc2) as (C & EC).
  eexists. split.
  - eapply gemm_entry_ok; eauto; try (apply EC); split; auto.
  - eapply changes_only_weaken; [|eapply changes_only_trans; [exact C2 | apply hset_changes_only]].
    intros q [Hq | ->]; auto. exists (i, j). split; [split; auto|]. now rewrite <- surjective_pairing.
Qed.

Lemma dot_guarded_good : forall shape m (h : heap) a b, base_valid h a -> base_valid h b ->
  strided_type (bm_layout a) = true -> strided_type (bm_layout b) = true ->
  dot_guarded kern shape m h a b = Panic \/
  exists h' r, dot_guarded kern shape m h a b = Ok (h', r) /\ extends h h' /\ good_matrix h' (MBase r).
Proof.
  intros shape m h a b Va Vb Sa Sb.
  assert (GO : forall f, f = Panic \/ (exists h1 r, f = Ok (h1, r) /\ fresh_zeros h h1 r /\
      has_strides (bm_layout r) = false /\ strided_type (bm_layout r) = true) ->
    let r := ('(h1, res) <- f ;; h2 <- matmul_with repaired_stride kern h1 sone a b szero res ;; Ok (h2, res)) in
    r = Panic \/ exists h' b, r = Ok (h', b) /\ extends h h' /\ good_matrix h' (MBase b)).
  { intros f [->|(h1 & r & -> & Hf & Hl & S3)]; [now left|]. cbn [bind].
    pose proof Hf as (Hoa & Vr & _). apply only_allocates_extends in Hoa.
    assert (Va1 : base_valid h1 a) by (eapply base_valid_extends; eauto).
    assert (Vb1 : base_valid h1 b) by (eapply base_valid_extends; eauto).
    destruct (matmul_with_good h1 sone a b szero r Va1 Vb1 Vr Sa Sb S3) as [->|(h' & -> & He)]; [now left|].
    right. cbn [bind]. exists h', r. splits; auto; [now apply extends_trans with h1|].
    split; [eapply base_valid_extends; eauto|now apply dense_apart]. }
  unfold dot_guarded. destruct shape; apply GO.
  - destruct (zeros_guarded_good m h KRowMajor (fst (dim (bm_layout a))) (snd (dim (bm_layout b))))
      as [->|(h1 & r & -> & H1 & H2 & H3)]; [now left|].
    right. exists h1, r. splits; auto. now injection H3 as <-.
  - rewrite row_vector_from_dim. destruct (_ =? 1); [|now left].
    destruct (row_safe m h (snd (dim (bm_layout b)))) as [->|(h1 & r & -> & H1 & H2)]; [now left|].
    right. exists h1, r. splits; auto; now rewrite H2.
  - rewrite column_vector_from_dim. destruct (_ =? 1); [|now left].
    destruct (column_safe m h (fst (dim (bm_layout a)))) as [->|(h1 & r & -> & H1 & H2)]; [now left|].
    right. exists h1, r. splits; auto; now rewrite H2.
Qed.

Lemma dot_guarded_same : forall shape (h : heap) a b, same (fun m => dot_guarded kern shape m h a b).
Proof.
  intros shape h a b m. unfold dot_guarded. destruct shape; [|reflexivity..].
  now rewrite (zeros_guarded_same h KRowMajor _ _ m).
Qed.

(** ** The calls that are as before *)

Definition as_before (o : call T St) : Prop :=
  no_unsafe o /\
  match o with
  | CZeros _ _ _ | CFromVector _ _ _ _ | CFromArray _ _ _ _ | CFromSlice _ _ _ _ _ _ _ => False
  | CBlock _ _ _ _ | CSplit _ _ | CMatmul _ _ _ _ _ | CDot _ _ _ => False
  | _ => True
  end.

Lemma before_exec : forall m st o, as_before o -> exec_guarded kern m st o = exec kern m st o.
Proof. intros m st o [_ H]. destruct o; try contradiction; reflexivity. Qed.

Lemma before_good : forall m st (o : call T St) r, good st -> as_before o -> exec kern m st o = Some r ->
  r = Panic \/
  exists st' res, r = Ok (st', res) /\
    exists new, st_mats st' = st_mats st ++ new /\ Forall (good_matrix (st_heap st')) new.
Proof.
  intros m st o r Hs [Ho Hb] E.
  set (goal := fun r : outcome (state T * result T St) => r = Panic \/
    exists st' res, r = Ok (st', res) /\
      exists new, st_mats st' = st_mats st ++ new /\ Forall (good_matrix (st_heap st')) new).
  change (goal r).
  assert (NEW1 : forall f : outcome (heap * base_matrix),
     f = Panic \/ (exists h' b, f = Ok (h', b) /\ good_matrix h' (MBase b)) -> goal (new1 st f)).
  { intros f [->|(h' & b & -> & Hf)]; [now left|]. right. unfold new1. cbn [bind].
    eexists _, _. split; [reflexivity|]. cbn [st_mats st_heap]. eauto. }
  assert (FRESH : forall f : outcome (heap * base_matrix),
     f = Panic \/ (exists h' b, f = Ok (h', b) /\ fresh_zeros (st_heap st) h' b /\
        has_strides (bm_layout b) = false) -> goal (new1 st f)).
  { intros f Hf. apply NEW1. destruct Hf as [->|(h' & b & -> & H1 & H2)]; [now left|]. right.
    exists h', b. split; auto. split; [apply H1|now apply dense_apart]. }
  assert (EXPR : forall f : outcome (matrix T),
     f = Panic \/ (exists x, f = Ok x /\ good_matrix (st_heap st) x) -> goal (new_expr st f)).
  { intros f [->|(b & -> & Hf)]; [now left|]. right. unfold new_expr. cbn [bind].
    eexists _, _. split; [reflexivity|]. cbn [st_mats st_heap]. eauto. }
  assert (ITEM : forall f : outcome T, f = Panic \/ (exists v, f = Ok v) -> goal (item st f)).
  { intros f [->|(v & ->)]; [now left|]. right. unfold item. cbn [bind].
    eexists _, _. split; [reflexivity|]. exists []. split; [now rewrite app_nil_r|constructor]. }
  assert (DONE : forall f : outcome heap, f = Panic \/ (exists h', f = Ok h') -> goal (done st f)).
  { intros f [->|(v & ->)]; [now left|]. right. unfold done. cbn [bind].
    eexists _, _. split; [reflexivity|]. exists []. cbn [st_mats]. split; [now rewrite app_nil_r|constructor]. }
  destruct o; cbn [no_unsafe] in Ho, Hb; try contradiction; clear Ho Hb; cbn [exec] in E; unfold typed, when in E;
    repeat match type of E with
      | match ?x with _ => _ end = Some _ => destruct x eqn:?; try discriminate E
      end;
    try (apply some_inj in E); try subst r.
  - apply FRESH. right. apply fixed_instance_in in Heqb.
    destruct (c15_matrices m (st_heap st) rs cs k Heqb) as (h' & b & E & _ & Hd & _ & Hf).
    exists h', b. splits; eauto using zeros_fixed_dense.
  - apply FRESH. right. apply fixed_vector_instance_in in Heqb.
    destruct (c15_vectors m (st_heap st) rs cs k n Heqb) as (h' & b & E & _ & Hd & _ & Hf).
    exists h', b. splits; eauto using zeros_fixed_vector_dense.
  - apply FRESH. destruct (row_safe m (st_heap st) n) as [->|(h' & b & -> & Hf & El)]; [now left|].
    right. exists h', b. splits; auto. now rewrite El.
  - apply FRESH. destruct (column_safe m (st_heap st) n) as [->|(h' & b & -> & Hf & El)]; [now left|].
    right. exists h', b. splits; auto. now rewrite El.
  - apply FRESH. rewrite row_vector_from_dim. destruct (rows =? 1); [|now left].
    destruct (row_safe m (st_heap st) cols) as [->|(h' & b & -> & Hf & El)]; [now left|].
    right. exists h', b. splits; auto. now rewrite El.
  - apply FRESH. rewrite column_vector_from_dim. destruct (cols =? 1); [|now left].
    destruct (column_safe m (st_heap st) rows) as [->|(h' & b & -> & Hf & El)]; [now left|].
    right. exists h', b. splits; auto. now rewrite El.
  - (* get *) apply ITEM. destruct (lookup_good _ _ _ Hs Heqo) as (Hv & _).
    destruct (stored_dec (mat_layout m0) (r0, c)) as [H|H].
    + right. destruct (get_stored m _ _ _ _ Hv H) as (v & Hg & _). eauto.
    + left. now apply get_not_stored.
  - apply ITEM. destruct (lookup_good _ _ _ Hs Heqo) as (Hv & _).
    destruct (N.ltb_spec i (entry_count (mat_layout m0))) as [H|H].
    + right. destruct (get1d_stored m _ _ _ Hv H) as (v & -> & _). eauto.
    + left. now apply get1d_not_stored.
  - (* set *) apply DONE. destruct (lookup_good _ _ _ Hs Heqo) as (Hv & _).
    apply writable_base in Heqb. destruct Heqb as (b & Hb).
    destruct (stored_dec (mat_layout m0) (r0, c)) as [H|H].
    + right. destruct (set_stored m _ _ _ _ _ v Hv Hb H) as (h' & -> & _). eauto.
    + left. now apply (set_not_stored m _ _ b _ _ v Hv Hb).
  - apply DONE. destruct (lookup_good _ _ _ Hs Heqo) as (Hv & _).
    apply writable_base in Heqb. destruct Heqb as (b & Hb).
    destruct (N.ltb_spec i (entry_count (mat_layout m0))) as [H|H].
    + right. rewrite (set1d_stored m _ _ b _ v Hv Hb H). destruct (pos_spec _ _ H) as [Hp _].
      destruct (pos (mat_layout m0) i) as [p1 p2]. cbn [fst snd].
      destruct (set_stored m _ _ _ _ _ v Hv Hb Hp) as (h' & -> & _). eauto.
    + left. now apply set1d_not_stored.
  - (* slice read *) apply ITEM. destruct (base_good _ _ _ Hs Heqo) as (Hv & _).
    destruct (get_slice_cases (st_heap st) b first last Hv) as [->|(rg & -> & Hr & _)]; [now left|]. cbn [bind].
    unfold slice_read. destruct (N.ltb_spec i (r_len rg)) as [H|H]; [|now left]. cbn [assert_ bind].
    right. destruct (region_read_ok (st_heap st) rg i (proj1 Hr) H) as (w & -> & _). eauto.
  - apply DONE. destruct (mut_good _ _ _ Hs Heqo) as (Hv & _).
    rewrite get_slice_mut_eq.
    destruct (get_slice_cases (st_heap st) b first last Hv) as [->|(rg & -> & Hr & _)]; [now left|]. cbn [bind].
    unfold slice_write. destruct (N.ltb_spec i (r_len rg)) as [H|H]; [|now left]. cbn [assert_ bind].
    right. destruct (region_read_ok (st_heap st) rg i (proj1 Hr) H) as (w & _ & Ew).
    rewrite region_place_ok by auto. cbn [bind]. unfold place_write. cbn [pl_alloc pl_index]. rewrite Ew. eauto.
  - (* dim *) right. eexists _, _. split; [reflexivity|]. exists []. split; [now rewrite app_nil_r|constructor].
  - right. eexists _, _. split; [reflexivity|]. exists []. split; [now rewrite app_nil_r|constructor].
  - (* from_ref *) apply EXPR. right. eexists. split; [reflexivity|]. exact (lookup_good _ _ _ Hs Heqo).
  - apply EXPR. right. eexists. split; [reflexivity|]. exact (lookup_good _ _ _ Hs Heqo).
  - apply EXPR. right. eexists. split; [reflexivity|]. rewrite scalar_times_eq.
    destruct (lookup_good _ _ _ Hs Heqo) as (Hv & Ht). destruct p; repeat split; auto.
  - apply EXPR. right. eexists. split; [reflexivity|]. rewrite times_scalar_eq.
    destruct (lookup_good _ _ _ Hs Heqo) as (Hv & Ht). destruct p; repeat split; auto.
  - (* plus *) apply EXPR. destruct (lookup_good _ _ _ Hs Heqo) as (Hv & Ht).
    destruct (lookup_good _ _ _ Hs Heqo0) as (Hv' & Ht').
    apply andb_true_iff in Heqb. destruct Heqb as [Hk _]. apply kind_eqb_eq in Hk. rewrite plus_eq.
    destruct (dim_eqb _ _) eqn:Ed; [|now left]. apply dim_eqb_eq in Ed. right. eexists. split; [reflexivity|].
    unfold good_matrix. cbn [valid leaves_apart mat_layout]. rewrite !wrap_layout, !wrap_valid.
    splits; auto; destruct p, q; auto.
  - (* eval *) apply NEW1. destruct (lookup_good _ _ _ Hs Heqo) as (Hv & Ht).
    destruct (column_vector_like (mat_layout m0)) eqn:Ecol; [destruct (N.eq_dec (fst (mat_dim m0)) 1)|].
    2:{ left. now apply c26_column. }
    all: destruct (N.leb_spec (entry_count (mat_layout m0) * Npos ssize) isize_max) as [Hn|Hn];
      [right | left; eapply c26; auto; congruence].
    all: destruct (eval_ok m (st_heap st) m0 Hv ltac:(congruence) Hn) as (h' & b & Ee & _ & _ & Vb & Lb & _);
      exists h', b; split; auto; unfold good_matrix; cbn [valid leaves_apart mat_layout]; rewrite Lb;
      split; auto; now destruct (mat_layout m0).
  - (* for_each *) destruct (mut_good _ _ _ Hs Heqo) as (Hv & _).
    right. destruct (c30_cells St m (st_heap st) b f s Hv) as (qs & h' & s' & pn & _ & _ & ->).
    unfold looped. cbn [bind]. eexists _, _. split; [reflexivity|]. exists []. cbn [st_mats].
    split; [now rewrite app_nil_r|constructor].
  - destruct (mut_good _ _ _ Hs Heqo) as (Hv & _).
    right. unfold fill_from_rand.
    destruct (c30_cells St m (st_heap st) b
       (fun g _ => let '(v, g') := random_scalar g in (g', v, false)) s Hv) as (qs & h' & s' & pn & _ & _ & ->).
    unfold looped. cbn [bind]. eexists _, _. split; [reflexivity|]. exists []. cbn [st_mats].
    split; [now rewrite app_nil_r|constructor].
Qed.

Lemma before_same : forall m st (o : call T St), good st -> as_before o ->
  exec kern m st o = exec kern Checked st o.
Proof.
  intros m st o Hs [Ho Hb].
  assert (NEW1 : forall f : mode -> outcome (heap * base_matrix), same f ->
    @new1 T St st (f m) = new1 st (f Checked)) by (intros f Hf; now rewrite (Hf m)).
  assert (ITEM : forall f : mode -> outcome T, same f ->
    @item T St st (f m) = item st (f Checked)) by (intros f Hf; now rewrite (Hf m)).
  assert (DONE : forall f : mode -> outcome heap, same f ->
    @done T St st (f m) = done st (f Checked)) by (intros f Hf; now rewrite (Hf m)).
  destruct o; cbn [no_unsafe] in Ho, Hb; try contradiction; clear Ho Hb; cbn [exec]; unfold typed, when;
    repeat match goal with
      | |- context [match lookup ?a ?b with _ => _ end] => destruct (lookup a b) eqn:?; [|reflexivity]
      | |- context [match lookup_base ?a ?b with _ => _ end] => destruct (lookup_base a b) eqn:?; [|reflexivity]
      | |- context [match lookup_mut ?a ?b with _ => _ end] => destruct (lookup_mut a b) eqn:?; [|reflexivity]
      | |- (if ?b then _ else _) = _ => destruct b eqn:?; [|reflexivity]
      end; try reflexivity; try lazymatch goal with |- Some _ = Some _ => apply (f_equal Some) end.
  - apply (NEW1 (fun m => zeros_fixed m _ k rs cs)).
    apply fixed_instance_in in Heqb.
    destruct (c15_matrices Checked (st_heap st) rs cs k Heqb) as (h' & b & E & _).
    apply (same_ok _ _ (h', b)); [apply agrees_zeros_fixed|exact E].
  - apply (NEW1 (fun m => zeros_fixed_vector m _ rs cs k n)).
    apply fixed_vector_instance_in in Heqb.
    destruct (c15_vectors Checked (st_heap st) rs cs k n Heqb) as (h' & b & E & _).
    apply (same_ok _ _ (h', b)); [apply agrees_zeros_fixed_vector|exact E].
  - apply (ITEM (fun m => get m _ m0 r c)). apply same_get. eapply lookup_good; eauto.
  - apply (ITEM (fun m => get1d m _ m0 i)). apply same_get1d. eapply lookup_good; eauto.
  - apply (DONE (fun m => set m _ m0 r c v)). apply writable_base in Heqb. destruct Heqb as (b & Hb).
    eapply same_set; eauto. eapply lookup_good; eauto.
  - apply (DONE (fun m => set1d m _ m0 i v)). apply writable_base in Heqb. destruct Heqb as (b & Hb).
    eapply same_set1d; eauto. eapply lookup_good; eauto.
  - apply (NEW1 (fun m => eval m _ m0)). apply same_eval. eapply lookup_good; eauto.
  - destruct (mut_good _ _ _ Hs Heqo) as (Hv & _).
    now rewrite (same_for_each St (st_heap st) b f s Hv m).
  - destruct (mut_good _ _ _ Hs Heqo) as (Hv & _).
    unfold fill_from_rand. now rewrite (same_for_each St (st_heap st) b _ s Hv m).
Qed.

(** ** One call *)

Lemma step_guarded_good : forall m st (o : call T St), good st -> no_unsafe o ->
  exists st' r, step_guarded kern m st o = Ok (st', r) /\ good st'.
Proof.
  intros m st o Hs Ho.
  assert (KEEP : forall h' new, extends (st_heap st) h' -> Forall (good_matrix h') new ->
     good (mkState h' (st_mats st ++ new))).
  { intros h' new He Hn. apply Forall_app. split; auto. eapply Forall_impl; [|exact Hs]. intros x. now apply good_extends. }
  assert (NIL : forall h', extends (st_heap st) h' -> good (mkState h' (st_mats st))).
  { intros h' He. pose proof (KEEP h' [] He (Forall_nil _)) as H. now rewrite app_nil_r in H. }
  set (goal := fun r : outcome (state T * result T St) => r = Panic \/ exists st' res, r = Ok (st', res) /\ good st').
  assert (GO : (exec_guarded kern m st o = None \/ exists r, exec_guarded kern m st o = Some r /\ goal r) ->
    exists st' r, step_guarded kern m st o = Ok (st', r) /\ good st').
  { unfold step_guarded. intros [->|(r & -> & [->|(st' & res & -> & H)])]; eauto. }
  assert (HB : as_before o \/ ~ as_before o) by (unfold as_before; destruct o; cbn in *; tauto).
  destruct HB as [HB|HB].
  { assert (Eg : step_guarded kern m st o = step kern m st o) by (unfold step_guarded, step; now rewrite before_exec).
    rewrite Eg. clear GO Eg. unfold step. destruct (exec kern m st o) as [r|] eqn:E; [|eauto].
    destruct (before_good m st o r Hs HB E) as [->|(st' & res & -> & new & H1 & H2)]; [eauto|].
    eexists _, _. split; [reflexivity|].
    assert (Es : step kern m st o = Ok (st', res)) by (unfold step; now rewrite E).
    destruct (step_effect _ _ _ _ _ _ (good_placed st Hs) Es) as ((He & _) & _ & _).
    unfold good. rewrite H1. apply Forall_app. split; auto. eapply Forall_impl; [|exact Hs]. intros x. now apply good_extends. }
  assert (EX : extends (st_heap st) (st_heap st)) by (intros a l E; eauto).
  apply GO. destruct o; try (exfalso; apply HB; split; [exact Ho|exact Logic.I]); clear GO HB; cbn [no_unsafe] in Ho;
    try contradiction; cbn [exec_guarded exec_with]; unfold typed, when;
    repeat match goal with
      | |- context [match lookup_base ?a ?b with _ => _ end] => destruct (lookup_base a b) eqn:?; [|now left]
      | |- context [match lookup_mut ?a ?b with _ => _ end] => destruct (lookup_mut a b) eqn:?; [|now left]
      | |- context [match lookup_block ?a ?b ?c with _ => _ end] => destruct (lookup_block a b c) eqn:?; [|now left]
      | |- context [if ?b then _ else None] => destruct b eqn:?; [|now left]
      end.
  - right. eexists. split; [reflexivity|]. destruct (zeros_guarded_good m (st_heap st) k rows cols) as [->|(h' & b & -> & Hf & Hl & _)]; [now left|].
    right. eexists _, _. split; [reflexivity|]. apply KEEP; [apply only_allocates_extends, Hf|].
    constructor; [split; [apply Hf|now apply dense_apart]|constructor].
  - right. eexists. split; [reflexivity|].
    destruct (vector_container_new (st_heap st) n) as [[h' c]| |] eqn:Ev; cbn [bind];
      [|now left|now apply vector_container_new_not_ub in Ev].
    apply vector_new_inv in Ev. destruct Ev as (-> & -> & Hn).
    destruct (from_data_guarded_good m (st_heap st ++ [repeat szero (N.to_nat n)]) rs cs
      (mkContainer VectorContainer (mkRegion (length (st_heap st)) 0 n)) l) as [->|(b & -> & Hb)];
      [now apply slice_ok_alloc | now left|].
    right. eexists _, _. split; [reflexivity|]. apply KEEP; auto. apply only_allocates_extends, only_allocates_app.
  - right. eexists. split; [reflexivity|]. unfold array_container_new, alloc. apply N.leb_le in Heqb.
    destruct (from_data_guarded_good m (st_heap st ++ [repeat szero (N.to_nat n)]) rs cs
      (mkContainer ArrayContainer (mkRegion (length (st_heap st)) 0 (N.of_nat (length (repeat (@szero T SC) (N.to_nat n)))))) l) as [->|(b & -> & Hb)];
      [|now left|].
    { apply slice_ok_alloc; auto. cbn [c_region]. now rewrite repeat_length, N2Nat.id. }
    right. eexists _, _. split; [reflexivity|]. apply KEEP; auto. apply only_allocates_extends, only_allocates_app.
  - right. eexists. split; [reflexivity|]. destruct (block_good _ _ _ _ Hs Heqo) as (Hv & _).
    assert (Es : (if mut then get_slice_mut b first last else get_slice b first last) = get_slice b first last)
      by (destruct mut; auto using get_slice_mut_eq). rewrite Es.
    destruct (get_slice_cases (st_heap st) b first last Hv) as [->|(rg & -> & Hr & Hlen)]; [now left|]. cbn [bind].
    destruct (from_data_guarded_good m (st_heap st) rs cs (slice_container mut rg) l) as [->|(v & -> & Hb)];
      [now rewrite slice_container_region|now left|].
    right. eexists _, _. split; [reflexivity|]. apply KEEP; auto.
  - destruct (block_order (bm_layout b)) as [ord|] eqn:Eo; [|now left]. right. eexists. split; [reflexivity|].
    destruct (block_good _ _ _ _ Hs Heqo) as (Hv & Ha).
    destruct (block_guarded_good m (st_heap st) mut b tl d ord Hv Ha Eo) as [->|[-> Hg]]; [now left|].
    right. eexists _, _. split; [reflexivity|]. apply KEEP; auto.
  - destruct (mut_good _ _ _ Hs Heqo) as (Hv & _).
    destruct (bm_layout b) as [D|D|n|n|D s|D s|n s|n s|n] eqn:El; try (now left). right. eexists. split; [reflexivity|].
    destruct (split_guarded_cases m (st_heap st) b D at_ Hv El) as [[_ ->]|(_ & -> & Hq)]; [now left|].
    right. unfold quarters in *. cbn [bind]. eexists _, _. split; [reflexivity|]. apply KEEP; auto.
    pose proof (Hq Q0); pose proof (Hq Q1); pose proof (Hq Q2); pose proof (Hq Q3). cbn [pick] in *. auto 10.
  - right. eexists. split; [reflexivity|]. destruct (base_good _ _ _ Hs Heqo) as (Va & _).
    destruct (base_good _ _ _ Hs Heqo0) as (Vb & _). destruct (mut_good _ _ _ Hs Heqo1) as (Vc & _).
    match goal with H : matmul_typed _ _ _ = true |- _ => rename H into Hm end. unfold matmul_typed in Hm.
    apply andb_true_iff in Hm. destruct Hm as [Hm _].
    apply andb_true_iff in Hm. destruct Hm as [Hm S3]. apply andb_true_iff in Hm. destruct Hm as [S1 S2].
    destruct (matmul_with_good (st_heap st) alpha b0 b1 beta b2 Va Vb Vc S1 S2 S3) as [->|(h' & -> & He)]; [now left|].
    right. eexists _, _. split; [reflexivity|]. now apply NIL.
  - right. eexists. split; [reflexivity|]. destruct (base_good _ _ _ Hs Heqo) as (Va & _).
    destruct (base_good _ _ _ Hs Heqo0) as (Vb & _).
    match goal with H : dot_typed _ _ _ = true |- _ => rename H into Hm end. unfold dot_typed in Hm.
    apply andb_true_iff in Hm. destruct Hm as [Hm _]. apply andb_true_iff in Hm. destruct Hm as [S1 S2].
    destruct (dot_guarded_good shape m (st_heap st) b0 b1 Va Vb S1 S2) as [->|(h' & r & -> & He & Hg)]; [now left|].
    right. eexists _, _. split; [reflexivity|]. apply KEEP; auto.
Qed.

Lemma exec_guarded_same : forall m st (o : call T St), good st -> no_unsafe o ->
  exec_guarded kern m st o = exec_guarded kern Checked st o.
Proof.
  intros m st o Hs Ho.
  assert (HB : as_before o \/ ~ as_before o) by (unfold as_before; destruct o; cbn in *; tauto).
  destruct HB as [HB|HB]; [rewrite !before_exec by auto; now apply before_same|].
  destruct o; try (exfalso; apply HB; split; [exact Ho|exact Logic.I]); clear HB; cbn [no_unsafe] in Ho;
    try contradiction; cbn [exec_guarded exec_with]; unfold typed, when;
    repeat match goal with
      | |- context [match lookup_base ?a ?b with _ => _ end] => destruct (lookup_base a b) eqn:?; [|reflexivity]
      | |- context [match lookup_mut ?a ?b with _ => _ end] => destruct (lookup_mut a b) eqn:?; [|reflexivity]
      | |- context [match lookup_block ?a ?b ?c with _ => _ end] => destruct (lookup_block a b c) eqn:?; [|reflexivity]
      | |- (if ?b then _ else None) = _ => destruct b eqn:?; [|reflexivity]
      end; try reflexivity.
  - now rewrite (zeros_guarded_same (st_heap st) k rows cols m).
  - destruct (vector_container_new (st_heap st) n) as [[h' c]| |]; cbn [bind]; auto. now rewrite (from_data_guarded_same rs cs c l m).
  - destruct (array_container_new (st_heap st) n) as [h' c]. now rewrite (from_data_guarded_same rs cs c l m).
  - destruct (if mut then _ else _) as [rg| |]; cbn [bind]; auto. now rewrite (from_data_guarded_same rs cs _ l m).
  - destruct (block_order (bm_layout b)) as [ord|] eqn:Eo; [|discriminate].
    destruct (block_good _ _ _ _ Hs Heqo) as (Hv & Ha). now rewrite (block_guarded_same (st_heap st) mut b tl d ord Hv Ha Eo m).
  - destruct (mut_good _ _ _ Hs Heqo) as (Hv & _).
    destruct (bm_layout b) as [D|D|n|n|D s|D s|n s|n s|n] eqn:El; auto.
    destruct (split_guarded_cases m (st_heap st) b D at_ Hv El) as [[H1 ->]|(H1 & -> & _)];
      destruct (split_guarded_cases Checked (st_heap st) b D at_ Hv El) as [[H2 ->]|(H2 & -> & _)]; tauto || reflexivity.
  - now rewrite (dot_guarded_same shape (st_heap st) b0 b1 m).
Qed.

(** ** Histories *)

Lemma run_guarded_good : forall m (os : list (call T St)) st, good st -> Forall no_unsafe os ->
  exists st' rs, run_guarded kern m st os = Ok (st', rs) /\ good st'.
Proof.
  intros m os. induction os as [|o os IH]; intros st Hs Ho; cbn [run_guarded]; [eauto|].
  apply Forall_cons_iff in Ho. destruct Ho as [H1 H2].
  destruct (step_guarded_good m st o Hs H1) as (st1 & r & -> & Hs1). cbn [bind].
  destruct (IH st1 Hs1 H2) as (st2 & rs & -> & Hs2). cbn [bind]. eauto.
Qed.

Lemma initial_good : good initial.
Proof. constructor. Qed.

Lemma c63_safe : forall m (os : list (call T St)), Forall no_unsafe os ->
  exists st rs, run_guarded kern m initial os = Ok (st, rs).
Proof. intros m os H. destruct (run_guarded_good m os initial initial_good H) as (st & rs & E & _). eauto. Qed.

Lemma run_guarded_same : forall m (os : list (call T St)) st, good st -> Forall no_unsafe os ->
  run_guarded kern m st os = run_guarded kern Checked st os.
Proof.
  intros m os. induction os as [|o os IH]; intros st Hs Ho; cbn [run_guarded]; [reflexivity|].
  apply Forall_cons_iff in Ho. destruct Ho as [H1 H2].
  assert (E : step_guarded kern m st o = step_guarded kern Checked st o)
    by (unfold step_guarded; now rewrite exec_guarded_same).
  rewrite E. destruct (step_guarded_good Checked st o Hs H1) as (st1 & r & -> & Hs1). cbn [bind].
  now rewrite (IH st1 Hs1 H2).
Qed.

Lemma c63_same : forall m (os : list (call T St)), Forall no_unsafe os ->
  run_guarded kern m initial os = run_guarded kern Checked initial os.
Proof. intros m os. apply run_guarded_same, initial_good. Qed.

(** ** The checks refuse nothing else *)

Lemma dense_strides_in : forall l n, has_strides l = false -> strides_in l n = true.
Proof. intros []; cbn; auto; discriminate. Qed.

Lemma from_data_checked : forall rs cs c l, has_strides l = false ->
  from_data_guarded Checked rs cs c l = from_data Checked rs cs c l.
Proof.
  intros rs cs c l Hl. unfold from_data_guarded. rewrite dense_strides_in, Bool.andb_true_r by auto.
  destruct (count_fits l) eqn:E; cbn [assert_ bind]; auto.
  destruct (from_data Checked rs cs c l) as [b| |] eqn:Eb; auto; [|now apply from_data_not_ub in Eb].
  apply from_data_inv in Eb. destruct Eb as (_ & n & En & _). apply number_of_elements_checked in En.
  destruct En as [_ En]. apply count_fits_small in En. congruence.
Qed.

Lemma zeros_checked : forall (h : heap) k rows cols,
  zeros_guarded Checked h k rows cols = zeros_from_dim Checked h k rows cols.
Proof.
  intros h k rows cols. unfold zeros_guarded.
  destruct (from_dimension k (rows, cols)) as [l| |] eqn:El; cbn [bind]; [|unfold zeros_from_dim; now rewrite El..].
  destruct (count_fits l) eqn:E; cbn [assert_ bind]; auto.
  unfold zeros_from_dim. rewrite El. cbn [bind].
  destruct (number_of_elements Checked l) as [n| |] eqn:En; cbn [bind]; auto.
  - apply number_of_elements_checked in En. destruct En as [_ En]. apply count_fits_small in En. congruence.
  - now apply number_of_elements_not_ub in En.
Qed.

Lemma exec_guarded_checked : forall st (o : call T St), good st -> safe_call o ->
  exec_guarded kern Checked st o = exec_with repaired_stride kern Checked st o.
Proof.
  intros st o Hs Ho. destruct o; try reflexivity; cbn [safe_call] in Ho; cbn [exec_guarded exec_with exec]; unfold typed, when.
  - now rewrite zeros_checked.
  - destruct (vector_container_new (st_heap st) n) as [[h' c]| |]; cbn [bind]; auto. now rewrite from_data_checked.
  - destruct (array_container_new (st_heap st) n) as [h' c]. now rewrite from_data_checked.
  - destruct (lookup_block st mut x); auto. destruct (if mut then _ else _) as [rg| |]; cbn [bind]; auto. now rewrite from_data_checked.
  - destruct (lookup_block st mut x) as [b|] eqn:Eb; auto. destruct (is_dynamic (base_sizes b)); auto.
    destruct (block_order (bm_layout b)) as [o|] eqn:Eo; auto. do 2 f_equal. unfold block_guarded.
    match goal with |- context [assert_ ?x] => destruct x eqn:E end; cbn [assert_ bind]; auto.
    symmetry. apply repaired_outside_panics with o; auto. intros [H1 H2]. destruct Ho as [H3 H4]. lia.
  - destruct (lookup_mut st x) as [b|] eqn:Eb; auto. destruct (is_dynamic (base_sizes b)); auto.
    destruct (mut_good _ _ _ Hs Eb) as (Hv & _).
    destruct (bm_layout b) as [D|D|n|n|D s|D s|n s|n s|n] eqn:El; auto.
    destruct (split_guarded_cases Checked (st_heap st) b D at_ Hv El) as [[H1 ->]|(H1 & -> & _)].
    + now rewrite (split_outside (st_heap st) b D at_ Hv El H1).
    + now destruct (split_ok Checked (st_heap st) b D at_ Hv El H1) as [-> _].
  - destruct (lookup_base st a) as [u|]; auto. destruct (lookup_base st b) as [v|]; auto.
    destruct (dot_typed shape u v); auto. do 2 f_equal. unfold dot_guarded, dot_with. destruct shape; auto. now rewrite zeros_checked.
Qed.

Lemma safe_no_unsafe : forall o : call T St, safe_call o -> no_unsafe o.
Proof. intros []; cbn; auto. Qed.

Lemma c63_conservative : forall m (os : list (call T St)), Forall safe_call os ->
  run_guarded kern m initial os = run_with repaired_stride kern Checked initial os.
Proof.
  intros m os H. rewrite c63_same by (eapply Forall_impl; [|exact H]; apply safe_no_unsafe).
  assert (X : forall (os : list (call T St)) st, good st -> Forall safe_call os ->
    run_guarded kern Checked st os = run_with repaired_stride kern Checked st os).
  { clear os H. intros os. induction os as [|o os IH]; intros st Hs Ho; cbn [run_guarded run_with]; [reflexivity|].
    apply Forall_cons_iff in Ho. destruct Ho as [H1 H2].
    assert (E : step_guarded kern Checked st o = step_with repaired_stride kern Checked st o)
      by (unfold step_guarded, step_with; now rewrite exec_guarded_checked).
    destruct (step_guarded_good Checked st o Hs (safe_no_unsafe o H1)) as (st1 & r & E1 & Hs1).
    rewrite <- E, E1. cbn [bind]. now rewrite (IH st1 Hs1 H2). }
  apply X; auto. apply initial_good.
Qed.

(** ** Refinement *)

Lemma wider_safe : forall (os : list (call T St)) st, Forall no_unsafe os -> history_in_wider_scope kern st os ->
  Forall safe_call os.
Proof.
  intros os. induction os as [|o os IH]; intros st H1 H2; [constructor|].
  apply Forall_cons_iff in H1. destruct H1 as [Ho H1]. cbn [history_in_wider_scope] in H2. destruct H2 as [Hw H2].
  constructor; [|now apply (IH (fst (astep kern st o)))].
  destruct o; cbn in *; tauto.
Qed.

Lemma c63_refines : forall m (os : list (call T St)),
  ignores_strides kern -> Forall no_unsafe os -> history_in_wider_scope kern ainitial os ->
  exists st, run_guarded kern m initial os = Ok (st, snd (arun kern ainitial os)) /\
             same_tables st (fst (arun kern ainitial os)).
Proof.
  intros m os Hk Ho Hw. rewrite c63_conservative by (eapply wider_safe; eauto). now apply c62.
Qed.

End GuardedProofs.
