(** * A call reads only cells that its events access. *)

From Coq Require Import Lia ZifyBool ZifyNat ZifyN.
From Verif Require Import Machine MachineFacts Layouts Memory Matrix MatMul Spec MatrixSpec ExprSpec ProductSpec.
From Verif Require Import LayoutFacts MemoryFacts AccessFacts AccessProofs ConstructorProofs BlockProofs.
From Verif Require Import ExprProofs ProductProofs Program HistorySpec HistoryProofs HistorySafety Borrow BorrowFacts BorrowProofs.
From Verif Require Import Types TypesProofs OwnerProofs AliasProofs Dealloc DeallocProofs Threads ThreadProofs Stacked StackedFacts StackedCell StackedNew StackedProofs StackedHistory StackedEvents.

Section Reads.
Context {T : Type} {SC : HScalar T} {St : Type}.
Local Open Scope N_scope.

(** What a call returns in two states that differ in cells it does not access. *)
Definition same_out (D : nat * N -> Prop) (st : state T) (x y : state T * result T St) : Prop :=
  snd x = snd y /\ exists f', (forall a, f' a = a) /\ st_mats (fst y) = map (ren f') (st_mats (fst x)) /\
    ((rel f' D (st_heap (fst x)) (st_heap (fst y)) /\
      (length (st_heap (fst x)) = length (st_heap st) \/ st_mats (fst x) = st_mats st)) \/
     rel f' (also D (length (st_heap st))) (st_heap (fst x)) (st_heap (fst y))).

Lemma exec_reads : forall D kern m st st' (o : call T St), all_placed st -> length (st_heap st') = length (st_heap st) ->
  (reaches_data o = true -> forall x a w, In (x, a) (uses o) -> nth_error (st_mats st) x = Some w -> covered D w) ->
  st_mats st' = map (ren (fun a => a)) (st_mats st) -> rel (fun a => a) D (st_heap st) (st_heap st') ->
  optrel (orel (same_out D st)) (exec kern m st o) (exec kern m st' o).
Proof.
  intros D kern m [h ms] [h' ms'] o Hp Hlen Hc E R. cbn [st_mats st_heap] in *. subst ms'. set (f := fun a : nat => a) in *.
  assert (LK : forall x, lookup (mkState h' (map (ren f) ms)) x = option_map (ren f) (lookup (mkState h ms) x)).
  { intros x. unfold lookup. cbn [st_mats]. apply nth_error_map. }
  assert (LB : forall x, lookup_base (mkState h' (map (ren f) ms)) x = option_map (ren_base f) (lookup_base (mkState h ms) x)).
  { intros x. unfold lookup_base. rewrite LK. destruct (lookup _ x) as [[]|]; reflexivity. }
  assert (LM : forall x, lookup_mut (mkState h' (map (ren f) ms)) x = option_map (ren_base f) (lookup_mut (mkState h ms) x)).
  { intros x. unfold lookup_mut. rewrite LB. destruct (lookup_base _ x) as [b|]; cbn; auto.
    unfold container_is_mut. cbn. destruct (c_kind (bm_data b)); reflexivity. }
  assert (LV : forall mu x, lookup_block (mkState h' (map (ren f) ms)) mu x = option_map (ren_base f) (lookup_block (mkState h ms) mu x)).
  { intros [] x; cbn [lookup_block]; auto. }
  set (ok := fun x (w : matrix T) => (reaches_data o = true -> forall a, In (x, a) (uses o) -> covered D w) /\ placed h w).
  assert (AV : forall x w, lookup (mkState h ms) x = Some w -> ok x w).
  { intros x w Hw. split; [intros Hd a Hu; eapply Hc; eauto|]. exact (lookup_placed _ _ _ Hp Hw). }
  assert (AB : forall x b, lookup_base (mkState h ms) x = Some b -> ok x (MBase b)).
  { intros x b Hb. apply lookup_base_inv in Hb. eauto. }
  assert (AM : forall x b, lookup_mut (mkState h ms) x = Some b -> ok x (MBase b)).
  { intros x b Hb. apply lookup_mut_writable in Hb. destruct Hb. eauto. }
  unfold ok in *. clear ok.
  set (S1 := mkState h ms) in *. set (S2 := mkState h' (map (ren f) ms)) in *.
  assert (NEW1 : forall g g', orel (nrel f D (length h) (length h')) g g' ->
     orel (same_out D S1) (new1 S1 g) (new1 S2 g')).
  { intros g g' Q. eapply orel_bind; [exact Q|]. intros [h1 b1] [h2 b2] (R1 & R2 & R3). cbn [fst snd] in *. subst b2.
    split; auto. exists (ext f (length h) (length h')). split; [intros a; unfold ext, f; destruct (Nat.eqb_spec a (length h)); lia|]. cbn [st_mats st_heap fst]. split; [|right; exact R1]. unfold S1, S2. cbn [st_mats].
    rewrite map_app. cbn [map ren]. f_equal. apply map_ext_in. intros x Hx. symmetry. apply ext_old.
    unfold all_placed in Hp. rewrite Forall_forall in Hp. exact (Hp x Hx). }
  assert (SAME : forall r, same_out D S1 (S1, r) (S2, r)).
  { intros r. split; auto. exists f. split; [reflexivity|]. split; auto. }
  assert (VIEW : forall g g', orel (renrel f) g g' -> orel (same_out D S1) (new_view S1 g) (new_view S2 g')).
  { intros g g' Q. eapply orel_bind; [exact Q|]. intros b b' ->. split; auto. exists f. split; [reflexivity|]. cbn [st_mats st_heap fst].
    split; [now rewrite map_app|]. left. split; auto. }
  assert (EXPR : forall g g', orel (fun x y => y = ren f x) g g' -> orel (same_out D S1) (new_expr S1 g) (new_expr S2 g')).
  { intros g g' Q. eapply orel_bind; [exact Q|]. intros b b' ->. split; auto. exists f. split; [reflexivity|]. cbn [st_mats st_heap fst].
    split; [now rewrite map_app|]. left. split; auto. }
  assert (ITEM : forall g g', g' = g -> orel (same_out D S1) (item S1 g) (item S2 g')).
  { intros g g' ->. apply orel_same. intros b _. apply SAME. }
  assert (DONE : forall g g', orel (rel f D) g g' -> orel (same_out D S1) (done S1 g) (done S2 g')).
  { intros g g' Q. eapply orel_bind; [exact Q|]. intros h1 h2 R1. split; auto. exists f. split; [reflexivity|]. split; auto. }
  assert (LOOP : forall g g', orel (lrel f D) g g' -> orel (same_out D S1) (looped S1 g) (looped S2 g')).
  { intros g g' Q. eapply orel_bind; [exact Q|]. intros [[h1 s1] p1] [[h2 s2] p2] (R1 & R2 & R3). cbn [fst snd] in *. subst s2 p2.
    split; auto. exists f. split; [reflexivity|]. split; auto. }
  destruct o; cbn [exec]; cbv zeta; cbn [st_heap]; rewrite ?LK, ?LB, ?LM, ?LV; unfold typed, when; cbn [option_map];
    repeat match goal with
      | |- optrel _ (match ?x with _ => _ end) (match option_map _ ?x with _ => _ end) =>
          destruct x eqn:?; cbn [option_map optrel]; auto
      end;
    rewrite ?ren_writable, ?ren_layout, ?ren_size; unfold mat_length, mat_dim; rewrite ?ren_layout, ?ren_size.
  all: change (st_heap S1) with h; change (st_heap S2) with h'.
  all: repeat match goal with
      | |- optrel _ (if ?x then _ else _) (if ?x then _ else _) => destruct x eqn:?; cbn [optrel]; auto
      end; cbn [optrel].
  all: try (apply NEW1; first [now apply ren_zeros | now apply ren_fixed | now apply ren_fixed_vector | now apply ren_row |
    now apply ren_column | now apply ren_row_dim | now apply ren_column_dim]).
  all: repeat match goal with
      | H : lookup _ _ = Some _ |- _ => apply AV in H; let HC := fresh "HC" in destruct H as [HC ?]; try (specialize (HC eq_refl _ ltac:(cbn; auto)))
      | H : lookup_base _ _ = Some _ |- _ => apply AB in H; let HC := fresh "HC" in destruct H as [HC ?]; try (specialize (HC eq_refl _ ltac:(cbn; auto)))
      | H : lookup_mut _ _ = Some _ |- _ => apply AM in H; let HC := fresh "HC" in destruct H as [HC ?]; try (specialize (HC eq_refl _ ltac:(cbn; auto)))
      end.
  all: try (apply ITEM; first [eapply ren_get; eauto | eapply ren_get1d; eauto | eapply ren_unchecked; eauto]; fail).
  - apply NEW1. eapply orel_bind; [apply ren_vector; exact R|]. intros [h1 c1] [h2 c2] Q. exact (ren_new_data f D _ _ m rs cs l _ _ Q).
  - apply NEW1. pose proof (ren_array f D h h' n R) as Q.
    destruct (array_container_new h _) as [h1 c1], (array_container_new h' _) as [h2 c2]. exact (ren_new_data f D _ _ m rs cs l _ _ Q).
  - apply VIEW. eapply orel_bind; [destruct mut; [apply ren_slice_mut|apply ren_slice]|].
    intros r r' ->. rewrite ren_slice_container. apply ren_from_data.
  - apply VIEW. eapply orel_bind; [apply (ren_offset f (get_pointer b))|]. intros p p' ->. apply ren_dense.
  - apply VIEW. eapply orel_bind; [apply (ren_offset f (get_pointer b))|]. intros p p' ->. apply ren_strided.
  - apply DONE. now apply ren_set.
  - apply DONE. now apply ren_set1d.
  - apply DONE. eapply ren_place_set; eauto; [apply ren_mut|]. intros p Ep. apply mut_in in Ep. auto.
  - apply DONE. eapply ren_place_set; eauto; [apply ren_mut1d|]. intros p Ep. apply mut1d_in in Ep. auto.
  - apply ITEM. pose proof (ren_slice f b first last) as Q.
    destruct (get_slice b first last) as [rg| |] eqn:Eg, (get_slice (ren_base f b) first last) as [rg'| |]; cbn in Q; try contradiction; auto.
    subst rg'. cbn [bind]. unfold slice_read. cbn [ren_region r_len]. destruct (assert_ _); cbn [bind]; auto.
    eapply ren_read; eauto. intros q Hq. apply HC. apply slice_within in Eg. eapply within_in; eauto.
  - apply DONE. rewrite !get_slice_mut_eq. pose proof (ren_slice f b first last) as Q.
    destruct (get_slice b first last) as [rg| |] eqn:Eg, (get_slice (ren_base f b) first last) as [rg'| |]; cbn in Q; try contradiction; cbn; auto.
    subst rg'. unfold slice_write. cbn [ren_region r_len]. apply orel_same. intros _ _. eapply ren_place_set; eauto.
    + unfold region_place. cbn. destruct (_ <? _); cbn; auto.
    + intros p Ep. apply HC. apply region_place_in in Ep. apply slice_within in Eg. eapply within_in; eauto.
  - apply SAME.
  - destruct (mat_size m0) as [[] []]; cbn [optrel]; auto; apply SAME.
  - cbn [ren_base bm_layout]. unfold base_sizes. cbn [bm_rs bm_cs]. destruct (is_dynamic _); cbn [optrel]; auto.
    destruct (block_order (bm_layout b)); cbn [optrel]; auto. apply VIEW, ren_block.
  - unfold base_sizes. cbn [ren_base bm_rs bm_cs bm_layout]. destruct (is_dynamic _); cbn [optrel]; auto.
    change (mkBase (ren_cont f (bm_data b)) (bm_layout b) (bm_rs b) (bm_cs b)) with (ren_base f b).
    destruct (bm_layout b) as [D0|D0|n0|n0|D0 s|D0 s|n0 s|n0 s|n0]; cbn [optrel]; auto.
    eapply orel_bind; [apply ren_split|]. intros [[[b0 b1] b2] b3] [[[c0 c1] c2] c3] Q. cbn [four map] in Q.
    injection Q as -> -> -> ->. split; auto. exists f. split; [reflexivity|]. cbn [st_mats st_heap fst]. split; [rewrite map_app; reflexivity|].
    left. split; auto.
  - apply EXPR. reflexivity.
  - apply EXPR. reflexivity.
  - apply EXPR. rewrite !scalar_times_eq. cbn [orel ren]. now rewrite ren_wrap.
  - apply EXPR. rewrite !times_scalar_eq. cbn [orel ren]. now rewrite ren_wrap.
  - apply EXPR. rewrite !plus_eq. rewrite !ren_layout. destruct (dim_eqb _ _); cbn [orel]; auto. cbn [ren]. now rewrite !ren_wrap.
  - apply NEW1, ren_eval; auto.
  - apply LOOP, ren_for_each; auto.
  - apply LOOP, ren_for_each; auto.
  - unfold matmul_typed, base_sizes. cbn [ren_base bm_layout bm_rs bm_cs].
    destruct (_ && _)%bool; cbn [optrel]; auto. apply DONE, ren_matmul; auto.
  - unfold dot_typed, base_sizes. cbn [ren_base bm_layout bm_rs bm_cs].
    destruct (_ && _)%bool; cbn [optrel]; auto. apply NEW1, ren_dot; auto.
Qed.

Lemma skipped_heap : forall kern m (h h' : @heap T) ms (o : call T St), exec kern m (mkState h ms) o = None -> exec kern m (mkState h' ms) o = None.
Proof.
  intros kern m h h' ms o H. pose proof (exec_agrees kern m (mkState h ms) o) as A. pose proof (exec_agrees kern m (mkState h' ms) o) as B.
  rewrite H in A. change (types (mkState h' ms)) with (types (mkState h ms)) in B. unfold agrees in A, B.
  destruct (signature _ o); [contradiction|].
  destruct (exec kern m (mkState h' ms) o); [contradiction|reflexivity].
Qed.

Lemma rel_same : forall f D (h h' : @heap T), (forall a, f a = a) -> rel f D h h' -> forall a i, D (a, i) -> hget h' a i = hget h a i.
Proof. intros f D h h' Hf R a i Hd. rewrite <- (rel_get _ _ _ _ R a i Hd). now rewrite Hf. Qed.

Lemma ren_same : forall f (x : matrix T), (forall a, f a = a) -> ren f x = x.
Proof. intros f x Hf. rewrite <- (ren_id x) at 2. apply ren_ext. intros a _. apply Hf. Qed.

Lemma step_reads : forall kern eager m ts (o : call T St) ts' es r, tshown ts ->
  tstep kern eager m ts (Do o) = Some (Ok (ts', es, r)) ->
  forall h', length h' = length (st_heap (b_state (t_state ts))) ->
  (forall w a i, accessed es w (a, i) -> hget h' a i = hget (st_heap (b_state (t_state ts))) a i) ->
  exists st2, step kern m (mkState h' (st_mats (b_state (t_state ts)))) o = Ok (st2, r) /\
    st_mats st2 = st_mats (b_state (t_state ts')) /\
    forall v a i, In v (st_mats (b_state (t_state ts'))) -> occupies v (a, i) ->
      (exists w, accessed es w (a, i)) \/ (length (st_heap (b_state (t_state ts))) <= a)%nat ->
      hget (st_heap st2) a i = hget (st_heap (b_state (t_state ts'))) a i.
Proof.
  intros kern eager m ts o ts' es r Sh H h' Hl Hacc. pose proof (step_accesses _ _ _ _ _ _ _ _ Sh H) as [Ac _]. destruct Sh as [_ Pl].
  apply tstep_inv in H. destruct H as (bs' & new & k & Hb & Ea & ->).
  apply bstep_inv in Hb. destruct Hb as [(o' & bt & st' & Eo & A & Hs & ->)|(x & bt & Eo & _)]; [|discriminate].
  injection Eo as <-. cbn [b_state t_state] in *. remember (b_state (t_state ts)) as st eqn:Est. destruct st as [h ms]. cbn [st_heap st_mats] in *.
  set (D := fun q => (exists w, accessed es w q) /\ (fst q < length h)%nat).
  assert (Pl' : forall w q, In w ms -> occupies w q -> (fst q < length h)%nat).
  { intros w q Hw Hq. unfold all_placed in Pl. rewrite Forall_forall in Pl. apply (Pl w Hw). now apply occupies_lives. }
  assert (R : rel (fun a => a) D h h').
  { constructor; auto.
    - intros a i [[w Hw] _]. eapply Hacc; eauto.
    - intros a Ha. lia.
    - intros a i [_ Ha]. exact Ha. }
  assert (Em : ms = map (ren (fun a => a)) ms) by (rewrite <- map_id at 1; apply map_ext; intros x; symmetry; apply ren_id).
  destruct (step_cases _ _ _ _ _ _ Hs) as [E|[(-> & -> & E)|(-> & -> & E)]].
  3:{ exists (mkState h' ms). unfold step. rewrite (skipped_heap kern m h h' ms o E). splits; auto. cbn [st_mats st_heap].
      intros v a i Hv Ho [[w Hw]|Hge]; [eapply Hacc; eauto|]. apply Pl' in Ho; auto. cbn in Ho. lia. }
  - assert (Hr : r <> RSkipped) by (apply exec_seen in E; tauto).
    pose proof (exec_reads D kern m (mkState h ms) (mkState h' ms) o Pl Hl) as X. cbn [st_mats st_heap] in X. rewrite E in X.
    assert (Y : optrel (orel (same_out D (mkState h ms))) (Some (Ok (st', r))) (exec kern m (mkState h' ms) o)).
    { apply X; auto. intros Hd x a w Hu Hx q Hq. split; [|eapply Pl'; eauto; eapply nth_error_In; eauto].
      destruct (Ac x a w q Hr Hd Hu Hx Hq) as (w' & Hw' & _). eauto. }
    clear X. destruct (exec kern m (mkState h' ms) o) as [[[st2 r2]| |]|] eqn:E2; cbn [optrel orel] in Y; try contradiction.
    destruct Y as (Er & f' & Hf & Em2 & Y). cbn [fst snd] in *. subst r2. exists st2. unfold step. rewrite E2.
    assert (Em3 : st_mats st2 = st_mats st').
    { rewrite Em2. rewrite <- map_id. apply map_ext. intros x. now apply ren_same. }
    splits; auto. intros v a i Hv Ho HD. destruct (step_effect _ _ _ _ _ _ Pl Hs) as (_ & (nw & En) & P2).
    assert (Ha : (a < length (st_heap st'))%nat).
    { unfold all_placed in P2. rewrite Forall_forall in P2. apply (P2 v Hv). now apply occupies_lives in Ho. }
    destruct Y as [[Y1 Y2]|Y1]; apply (rel_same f' _ _ _ Hf Y1).
    + cbn [st_heap st_mats] in Y2. destruct HD as [[w Hw]|Hge].
      * split; [eauto|]. cbn [fst]. destruct Y2 as [Y2|Y2]; [lia|]. rewrite Y2 in Hv. apply (Pl' v (a, i)); auto.
      * exfalso. destruct Y2 as [Y2|Y2]; [lia|]. rewrite Y2 in Hv. apply Pl' in Ho; auto. cbn in Ho. lia.
    + unfold also. cbn [fst st_heap]. destruct (Nat.lt_ge_cases a (length h)) as [Hlt|Hge].
      * left. destruct HD as [Hw|HD]; [|lia]. split; auto.
      * right. pose proof (step_lengths _ _ _ _ _ _ Hs) as SL. cbn [st_heap] in SL. destruct r; try lia. destruct (allocates o); lia.
  - pose proof (exec_reads D kern m (mkState h ms) (mkState h' ms) o Pl Hl) as X. cbn [st_mats st_heap] in X. rewrite E in X.
    assert (Y : optrel (orel (same_out D (mkState h ms))) (Some Panic) (exec kern m (mkState h' ms) o)).
    { apply X; auto. intros Hd x a w Hu Hx q Hq. split; [|eapply Pl'; eauto; eapply nth_error_In; eauto].
      destruct (Ac x a w q) as (w' & Hw' & _); auto; [discriminate|]. eauto. }
    clear X. destruct (exec kern m (mkState h' ms) o) as [[[st2 r2]| |]|] eqn:E2; cbn [optrel orel] in Y; try contradiction.
    exists (mkState h' ms). unfold step. rewrite E2. splits; auto. cbn [st_mats st_heap].
    intros v a i Hv Ho [[w Hw]|Hge]; [eapply Hacc; eauto|]. apply Pl' in Ho; auto. cbn in Ho. lia.
Qed.

Lemma reads_shown : forall kern eager m (acts : list (action T St)) ts es rs (o : call T St) ts' es' r, Forall no_pointers acts ->
  trun kern eager m tinitial acts = Some (Ok (ts, es, rs)) -> tstep kern eager m ts (Do o) = Some (Ok (ts', es', r)) ->
  forall h', length h' = length (st_heap (b_state (t_state ts))) ->
  (forall w a i, accessed es' w (a, i) -> hget h' a i = hget (st_heap (b_state (t_state ts))) a i) ->
  exists st2, step kern m (mkState h' (st_mats (b_state (t_state ts)))) o = Ok (st2, r) /\
    st_mats st2 = st_mats (b_state (t_state ts')) /\
    forall v a i, In v (st_mats (b_state (t_state ts'))) -> occupies v (a, i) ->
      (exists w, accessed es' w (a, i)) \/ (length (st_heap (b_state (t_state ts))) <= a)%nat ->
      hget (st_heap st2) a i = hget (st_heap (b_state (t_state ts'))) a i.
Proof.
  intros kern eager m acts ts es rs o ts' es' r Np H Hs. eapply step_reads; [|exact Hs]. eapply tshown_run; eauto. apply tshown_initial.
Qed.
End Reads.
