(** * AbstractProofs: the code refines the abstract machine (C43). *)

From Coq Require Import Lia ZArith ZifyBool ZifyNat ZifyN.
From Verif Require Import Machine Layouts Memory Matrix MatMul MachineFacts Spec LayoutFacts LayoutProofs
  MemoryFacts MatrixSpec AccessFacts AccessProofs ConstructorProofs BlockProofs ExprSpec ExprProofs
  ProductSpec ProductProofs Program HistorySpec ModeProofs HistoryProofs HistorySafety ModeSafety Abstract AbstractFacts.
Local Open Scope N_scope.

Section AbstractProofs.
Context {T : Type} {SC : HScalar T} {St : Type}.
Notation heap := (@heap T).
Notation amatrix := (@amatrix T).
Notation handle := (@handle T).
Notation astate := (@astate T).
Variable kern : kernel T.
Notation simulated := (@simulated T SC St kern).

(** ** Constructors of fixed size *)

Lemma fixed_simulated : forall st ast rs cs k, state_rel st ast ->
  simulated st ast (CZerosFixed rs cs k).
Proof.
  intros st ast rs cs k H. destruct (is_fixed_instance rs cs k) eqn:Ei.
  2:{ apply simulated_skip; auto; [cbn [exec]|cbn [astep]; unfold provided]; rewrite Ei; reflexivity. }
  pose proof (fixed_instance_in _ _ _ Ei) as Hin.
  destruct (c15_matrices Checked (st_heap st) rs cs k Hin) as (h' & b & Eb & Hs & Hd & Hk & Hf).
  eapply simulated_ok.
  { cbn [exec]. rewrite Ei, Eb. reflexivity. }
  { cbn [astep]. unfold provided. rewrite Ei. reflexivity. }
  assert (Hkk : k = KRowMajor \/ k = KColumnMajor) by (cbn in Hin; intuition congruence).
  assert (Ecount : count k (size_N rs, size_N cs) = size_N rs * size_N cs) by (destruct Hkk as [-> | ->]; reflexivity).
  assert (Eh : h' = st_heap st ++ [repeat szero (N.to_nat (size_N rs * size_N cs))] /\
               c_region (bm_data b) = mkRegion (length (st_heap st)) 0 (size_N rs * size_N cs) /\
               bm_layout b = kind_layout k (size_N rs, size_N cs)).
  { unfold zeros_fixed in Eb. cbn zeta iota beta in Eb. unfold array_container_new in Eb. cbn in Eb.
    apply bind_ok in Eb. destruct Eb as (l & El & Eb). apply bind_ok in Eb. destruct Eb as (b' & Eb' & Eb).
    apply from_data_data in Eb'. subst b'. injection Eb as E1 E2. subst h' b. cbn [bm_data c_region bm_layout].
    rewrite repeat_length, N2Nat.id. repeat split.
    destruct k; cbn in El |- *; try congruence; clear - Hin; cbn in Hin; intuition congruence. }
  destruct Eh as (Eh & Er & El).
  unfold new_matrix. rewrite Ecount.
  apply (fresh_state (St := St) st ast h' b (size_N rs, size_N cs) k); auto.
  - destruct Hkk as [-> | ->]; reflexivity.
  - cbn [fst snd]. split; intros ->; reflexivity.
  - intros _. destruct Hkk as [-> | ->]; discriminate.
Qed.

Lemma fixed_vector_simulated : forall st ast rs cs k n, state_rel st ast ->
  simulated st ast (CZerosFixedVector rs cs k n).
Proof.
  intros st ast rs cs k n H. destruct (is_fixed_vector_instance rs cs k n) eqn:Ei.
  2:{ apply simulated_skip; auto; [cbn [exec]|cbn [astep]; unfold provided]; rewrite Ei; reflexivity. }
  pose proof (fixed_vector_instance_in _ _ _ _ Ei) as Hin.
  destruct (c15_vectors Checked (st_heap st) rs cs k n Hin) as (h' & b & Eb & Hs & Hd & Hk & Hf).
  eapply simulated_ok.
  { cbn [exec]. rewrite Ei, Eb. reflexivity. }
  { cbn [astep]. unfold provided. rewrite Ei. reflexivity. }
  assert (En : n = count k (size_N rs, size_N cs)).
  { cbn in Hin. destruct Hin as [E|[E|[E|[E|[]]]]]; injection E as <- <- <- <-; reflexivity. }
  assert (Eh : h' = st_heap st ++ [repeat szero (N.to_nat n)] /\
               c_region (bm_data b) = mkRegion (length (st_heap st)) 0 n /\
               bm_layout b = kind_layout k (size_N rs, size_N cs)).
  { unfold zeros_fixed_vector in Eb. unfold array_container_new in Eb. cbn in Eb.
    destruct (from_length k n) as [l|] eqn:El; [|discriminate].
    apply bind_ok in Eb. destruct Eb as (b' & Eb' & Eb).
    apply from_data_data in Eb'. subst b'. injection Eb as E1 E2. subst h' b. cbn [bm_data c_region bm_layout].
    rewrite repeat_length, N2Nat.id. repeat split.
    clear - El Hin. cbn in Hin. destruct Hin as [E|[E|[E|[E|[]]]]]; injection E as <- <- <- <-; cbn in El;
      apply some_inj in El; subst l; reflexivity. }
  destruct Eh as (Eh & Er & El). rewrite En in Eh, Er.
  unfold new_matrix. apply (fresh_state (St := St) st ast h' b (size_N rs, size_N cs) k); auto;
    clear - Hin; cbn in Hin; destruct Hin as [E|[E|[E|[E|[]]]]]; injection E as <- <- <- <-;
    try reflexivity; try discriminate; cbn; split; congruence.
Qed.

(** ** Containers of any size *)

Lemma dense_kind_layout : forall l, has_strides l = false -> l = kind_layout (index_kind l) (dim l).
Proof. intros [[] | [] | | | | | | |] H; cbn in *; congruence. Qed.

Lemma from_data_checked : forall rs cs c l, r_len (c_region c) <= isize_max ->
  from_data Checked rs cs c l =
  if entry_count l <=? r_len (c_region c) then Ok (mkBase c l rs cs) else Panic.
Proof.
  intros rs cs c l Hr. destruct (entry_count l <=? r_len (c_region c)) eqn:E.
  - apply N.leb_le in E. apply from_data_ok; auto. apply fits_small. unfold fits. lia.
  - apply N.leb_gt in E. destruct (from_data Checked rs cs c l) as [b| |] eqn:Eb; auto.
    + apply from_data_inv in Eb. destruct Eb as (_ & n & En & Hn).
      apply number_of_elements_checked in En. lia.
    + now apply from_data_not_ub in Eb.
Qed.

Lemma from_data_simulated : forall st ast o, state_rel st ast -> in_scope ast o ->
  match o with CFromVector _ _ _ _ | CFromArray _ _ _ _ => True | _ => False end -> simulated st ast o.
Proof.
  intros st ast o H Hs Ho.
  assert (X : exists k rs cs n l, has_strides l = false /\ well_typed rs cs l /\
    (n * Npos ssize <= isize_max ->
      exec kern Checked st o = Some (new1 st (b <- from_data Checked rs cs
         (mkContainer k (mkRegion (length (st_heap st)) 0 n)) l ;;
         Ok (st_heap st ++ [repeat szero (N.to_nat n)], b))) /\
      astep kern ast o = demand ast (count (index_kind l) (dim l) <=? n)
         (new_matrix_in ast (dim l) (index_kind l) (rs, cs) n (fun _ => szero))) /\
     (isize_max < n * Npos ssize -> simulated st ast o) /\ (k = VectorContainer \/ k = ArrayContainer)).
  { destruct o; try contradiction; destruct Hs as [Hs Hw].
    - exists VectorContainer, rs, cs, n, l. split; [exact Hs|]. split; [exact Hw|]. split; [|split; [|auto]].
      + intros Hn. apply N.leb_le in Hn. split.
        * cbn [exec]. unfold vector_container_new, alloc. rewrite Hn, repeat_length, N2Nat.id. reflexivity.
        * cbn [astep]. rewrite Hn. reflexivity.
      + intros Hn. apply N.leb_gt in Hn. eapply simulated_panic; [exact H| |reflexivity|].
        * cbn [exec]. unfold vector_container_new. rewrite Hn. reflexivity.
        * cbn [astep]. rewrite Hn. reflexivity.
    - exists ArrayContainer, rs, cs, n, l. split; [exact Hs|]. split; [exact Hw|]. split; [|split; [|auto]].
      + intros Hn. apply N.leb_le in Hn. split.
        * cbn [exec]. unfold array_container_new, alloc. rewrite Hn, repeat_length, N2Nat.id. reflexivity.
        * cbn [astep]. rewrite Hn. reflexivity.
      + intros Hn. apply N.leb_gt in Hn. apply simulated_skip; [exact H| |].
        * cbn [exec]. rewrite Hn. reflexivity.
        * cbn [astep]. rewrite Hn. reflexivity. }
  destruct X as (k & rs & cs & n & l & Hl & (W1 & W2 & W3) & X1 & X2 & Hk).
  destruct (N.le_gt_cases (n * Npos ssize) isize_max) as [Hn|Hn]; [|auto].
  destruct (X1 Hn) as [Ex Ea]. clear X1 X2.
  assert (Hn' : n <= isize_max) by nia.
  rewrite from_data_checked in Ex by exact Hn'. cbn [c_region r_len] in Ex. rewrite kind_count in Ex.
  destruct (count (index_kind l) (dim l) <=? n) eqn:Ec.
  2:{ eapply simulated_panic; [exact H|exact Ex|symmetry; exact Ea|reflexivity]. }
  apply N.leb_le in Ec. eapply simulated_ok; [exact Ex|exact Ea|].
  apply (fresh_state (St := St) st ast); auto.
  - apply fresh_from_room; auto.
    + apply fits_small. unfold fits. rewrite kind_count. lia.
    + rewrite kind_count. exact Ec.
    + destruct Hk; subst k; reflexivity.
  - apply dense_kind_layout. exact Hl.
  - rewrite <- dense_kind_layout; auto.
Qed.

(** ** Access *)

Lemma get_case : forall m st ast u y r c, state_rel st ast ->
  matrix_rel (st_heap st) (as_matrices ast) u y ->
  get m (st_heap st) u r c =
  if heldb (hkind y) (hdim y) (r, c) then Ok (hvalue (as_matrices ast) y (r, c)) else Panic.
Proof.
  intros m st ast u y r c [Hh _] Hu. pose proof (matrix_rel_valid _ _ _ _ Hu) as Hv.
  destruct (heldb (hkind y) (hdim y) (r, c)) eqn:E.
  - apply heldb_iff in E.
    destruct (get_stored m (st_heap st) u r c Hv) as (v & Ev & Hval);
      [eapply matrix_stored; eauto|].
    rewrite (matrix_entry_value _ _ _ _ _ Hh Hu E) in Hval. congruence.
  - apply get_not_stored; auto. intros Hs. apply (matrix_stored _ _ _ _ _ Hu) in Hs.
    apply heldb_iff in Hs. congruence.
Qed.

Lemma get1d_case : forall m st ast u y i, state_rel st ast ->
  matrix_rel (st_heap st) (as_matrices ast) u y ->
  get1d m (st_heap st) u i =
  if i <? count (hkind y) (hdim y) then Ok (hvalue (as_matrices ast) y (position (hkind y) (hdim y) i)) else Panic.
Proof.
  intros m st ast u y i [Hh _] Hu. pose proof (matrix_rel_valid _ _ _ _ Hu) as Hv.
  pose proof (matrix_count _ _ _ _ Hu) as Hc.
  destruct (i <? count (hkind y) (hdim y)) eqn:E.
  - apply N.ltb_lt in E. destruct (get1d_stored m (st_heap st) u i Hv) as (v & Ev & Hval); [lia|].
    rewrite (matrix_position _ _ _ _ _ Hu) in Hval.
    rewrite (matrix_entry_value _ _ _ _ _ Hh Hu) in Hval; [congruence|].
    eapply matrix_position_held; eauto.
  - apply N.ltb_ge in E. apply get1d_not_stored; auto. lia.
Qed.

Lemma window_stored_held : forall (h : heap) (ms : list amatrix) b w p, window_rel h ms b w ->
  (stored (bm_layout b) p <-> held (w_kind w) (w_dim w) p).
Proof.
  intros h ms b w p Hb. rewrite stored_held, (wr_dim _ _ _ _ Hb), (wr_kind _ _ _ _ Hb). tauto.
Qed.

Definition written (h : heap) (b : base_matrix) (p : N * N) (v : T) : heap :=
  hset h (fst (entry_cell b p)) (snd (entry_cell b p)) v.

Lemma set_case : forall m st ast u y b w r c v, state_rel st ast ->
  matrix_rel (st_heap st) (as_matrices ast) u y -> hwindow y = Some w -> writes_to u = Some b ->
  window_rel (st_heap st) (as_matrices ast) b w -> hdim y = w_dim w -> hkind y = w_kind w ->
  set m (st_heap st) u r c v =
  if heldb (w_kind w) (w_dim w) (r, c) then Ok (written (st_heap st) b (r, c) v) else Panic.
Proof.
  intros m st ast u y b w r c v [Hh _] Hu Hw Hwr Hb Hd Hk.
  pose proof (matrix_rel_valid _ _ _ _ Hu) as Hv.
  destruct (heldb (w_kind w) (w_dim w) (r, c)) eqn:E.
  - apply heldb_iff in E. rewrite <- Hd, <- Hk in E.
    destruct (set_stored m (st_heap st) u b r c v Hv Hwr) as (h' & Eh & -> & _);
      [eapply matrix_stored; eauto|]. exact Eh.
  - apply (set_not_stored m (st_heap st) u b); auto. intros Hs.
    apply (matrix_stored _ _ _ _ _ Hu) in Hs. rewrite Hd, Hk in Hs. apply heldb_iff in Hs. congruence.
Qed.

Lemma set1d_case : forall m st ast u y b w i v, state_rel st ast ->
  matrix_rel (st_heap st) (as_matrices ast) u y -> hwindow y = Some w -> writes_to u = Some b ->
  window_rel (st_heap st) (as_matrices ast) b w -> hdim y = w_dim w -> hkind y = w_kind w ->
  set1d m (st_heap st) u i v =
  if i <? count (w_kind w) (w_dim w) then Ok (written (st_heap st) b (position (w_kind w) (w_dim w) i) v) else Panic.
Proof.
  intros m st ast u y b w i v H Hu Hw Hwr Hb Hd Hk.
  pose proof (matrix_rel_valid _ _ _ _ Hu) as Hv. pose proof (matrix_count _ _ _ _ Hu) as Hc.
  rewrite <- Hd, <- Hk.
  destruct (i <? count (hkind y) (hdim y)) eqn:E.
  - apply N.ltb_lt in E. rewrite (set1d_stored m (st_heap st) u b i v Hv Hwr) by lia.
    rewrite (matrix_position _ _ _ _ _ Hu).
    pose proof (matrix_position_held _ _ _ _ _ Hu E) as Hp.
    rewrite (set_case m st ast u y b w) by auto. rewrite <- Hd, <- Hk, <- surjective_pairing.
    apply heldb_iff in Hp. rewrite Hp. reflexivity.
  - apply N.ltb_ge in E. apply set1d_not_stored; auto. lia.
Qed.

Lemma write_state : forall st ast b w p v, state_rel st ast ->
  window_rel (st_heap st) (as_matrices ast) b w -> held (w_kind w) (w_dim w) p ->
  state_rel (mkState (written (st_heap st) b p v) (st_mats st))
            (mkAState (put (as_matrices ast) w p v) (as_handles ast)).
Proof.
  intros st ast b w p v H Hb Hp. apply (state_rel_heap st ast); auto.
  - apply hset_extends.
  - apply same_roots_put.
  - apply heap_rel_put; auto. apply H.
Qed.

Lemma window_position_held : forall (h : heap) (ms : list amatrix) b w i, window_rel h ms b w ->
  i < count (w_kind w) (w_dim w) -> held (w_kind w) (w_dim w) (position (w_kind w) (w_dim w) i).
Proof.
  intros h ms b w i Hb Hi.
  apply (matrix_position_held h ms (@MBase T b) (HWindow w)); auto.
Qed.

Lemma item_simulated : forall st ast o b v r, state_rel st ast ->
  exec kern Checked st o = Some (item st r) -> r = (if b : bool then Ok v else Panic) ->
  astep kern ast o = demand ast b (ast, RItem v) -> simulated st ast o.
Proof.
  intros st ast o b v r H E -> E'. unfold demand in E'. destruct b.
  - eapply simulated_ok; [exact E|exact E'|exact H].
  - eapply simulated_panic; [exact H|exact E|symmetry; exact E'|reflexivity].
Qed.

Lemma done_simulated : forall st ast o (b : bool) h' ms' r, state_rel st ast ->
  exec kern Checked st o = Some (done st r) -> r = (if b : bool then Ok h' else Panic) ->
  astep kern ast o = demand ast b (changed ast ms') ->
  (b = true -> state_rel (mkState h' (st_mats st)) (mkAState ms' (as_handles ast))) ->
  simulated st ast o.
Proof.
  intros st ast o b h' ms' r H E -> E' Hs. unfold demand in E'. destruct b.
  - eapply simulated_ok; [exact E|exact E'|auto].
  - eapply simulated_panic; [exact H|exact E|symmetry; exact E'|reflexivity].
Qed.

Lemma access_simulated : forall st ast o, state_rel st ast -> in_scope ast o ->
  match o with
  | CGet _ _ _ | CGet1d _ _ | CSet _ _ _ _ | CSet1d _ _ _
  | CGetUnchecked _ _ _ | CGet1dUnchecked _ _ | CSetUnchecked _ _ _ _ | CSet1dUnchecked _ _ _ => True
  | _ => False
  end -> simulated st ast o.
Proof.
  intros st ast o H Hs Ho. destruct o; try contradiction; clear Ho;
    pose proof (lookup_rel st ast x H) as Hx; cbn [in_scope] in Hs;
    (destruct (ahandle ast x) as [y|] eqn:Ey;
     [|apply simulated_skip; [exact H|cbn [exec]; rewrite Hx; reflexivity
                             |cbn [astep]; rewrite Ey; reflexivity]]);
    destruct Hx as (u & Eu & Hu).
  - eapply item_simulated; [exact H|cbn [exec]; rewrite Eu; reflexivity|apply (get_case Checked st ast u y); auto|].
    cbn [astep]. rewrite Ey. reflexivity.
  - eapply item_simulated; [exact H|cbn [exec]; rewrite Eu; reflexivity|apply (get1d_case Checked st ast u y); auto|].
    cbn [astep]. rewrite Ey. reflexivity.
  - pose proof (matrix_writable _ _ _ _ Hu) as Hw. destruct (hwindow y) as [w|] eqn:Ew.
    2:{ apply simulated_skip; [exact H|cbn [exec]; rewrite Eu; cbn [typed]; rewrite Hw; reflexivity|].
        cbn [astep]. rewrite Ey. cbn [on]. rewrite Ew. reflexivity. }
    destruct Hw as (Hw & b & Hwr & Hb & Hm & Hd & Hk).
    eapply done_simulated; [exact H|cbn [exec]; rewrite Eu; cbn [typed]; rewrite Hw; reflexivity
      |apply (set_case Checked st ast u y b w); auto| |].
    + cbn [astep]. rewrite Ey. cbn [on]. rewrite Ew. reflexivity.
    + intros E. apply write_state; auto. apply heldb_iff. exact E.
  - pose proof (matrix_writable _ _ _ _ Hu) as Hw. destruct (hwindow y) as [w|] eqn:Ew.
    2:{ apply simulated_skip; [exact H|cbn [exec]; rewrite Eu; cbn [typed]; rewrite Hw; reflexivity|].
        cbn [astep]. rewrite Ey. cbn [on]. rewrite Ew. reflexivity. }
    destruct Hw as (Hw & b & Hwr & Hb & Hm & Hd & Hk).
    eapply done_simulated; [exact H|cbn [exec]; rewrite Eu; cbn [typed]; rewrite Hw; reflexivity
      |apply (set1d_case Checked st ast u y b w); auto| |].
    + cbn [astep]. rewrite Ey. cbn [on]. rewrite Ew. reflexivity.
    + intros E. apply write_state; auto. eapply window_position_held; eauto. apply N.ltb_lt. exact E.
  - specialize (Hs y eq_refl).
    eapply item_simulated; [exact H|cbn [exec]; rewrite Eu; reflexivity
      |rewrite get_unchecked_checked by (rewrite (matrix_rel_dim _ _ _ _ Hu); apply Hs);
       apply (get_case Checked st ast u y); auto|].
    cbn [astep]. rewrite Ey. reflexivity.
  - specialize (Hs y eq_refl).
    eapply item_simulated; [exact H|cbn [exec]; rewrite Eu; reflexivity
      |rewrite get1d_unchecked_checked by
         (try (eapply matrix_rel_valid; exact Hu); rewrite (matrix_count _ _ _ _ Hu); exact Hs);
       apply (get1d_case Checked st ast u y); auto|].
    cbn [astep]. rewrite Ey. reflexivity.
  - specialize (Hs y eq_refl).
    pose proof (matrix_writable _ _ _ _ Hu) as Hw. destruct (hwindow y) as [w|] eqn:Ew.
    2:{ apply simulated_skip; [exact H|cbn [exec]; rewrite Eu; cbn [typed]; rewrite Hw; reflexivity|].
        cbn [astep]. rewrite Ey. cbn [on]. rewrite Ew. reflexivity. }
    destruct Hw as (Hw & b & Hwr & Hb & Hm & Hd & Hk).
    eapply done_simulated; [exact H|cbn [exec]; rewrite Eu; cbn [typed]; rewrite Hw; reflexivity
      |rewrite set_unchecked_checked by (rewrite (matrix_rel_dim _ _ _ _ Hu); apply Hs);
       apply (set_case Checked st ast u y b w); auto| |].
    + cbn [astep]. rewrite Ey. cbn [on]. rewrite Ew. reflexivity.
    + intros E. apply write_state; auto. apply heldb_iff. exact E.
  - specialize (Hs y eq_refl).
    pose proof (matrix_writable _ _ _ _ Hu) as Hw. destruct (hwindow y) as [w|] eqn:Ew.
    2:{ apply simulated_skip; [exact H|cbn [exec]; rewrite Eu; cbn [typed]; rewrite Hw; reflexivity|].
        cbn [astep]. rewrite Ey. cbn [on]. rewrite Ew. reflexivity. }
    destruct Hw as (Hw & b & Hwr & Hb & Hm & Hd & Hk).
    eapply done_simulated; [exact H|cbn [exec]; rewrite Eu; cbn [typed]; rewrite Hw; reflexivity
      |rewrite (set1d_unchecked_checked Checked (st_heap st) u b) by
         (try exact Hwr; try (eapply matrix_rel_valid; exact Hu); rewrite (matrix_count _ _ _ _ Hu); exact Hs);
       apply (set1d_case Checked st ast u y b w); auto| |].
    + cbn [astep]. rewrite Ey. cbn [on]. rewrite Ew. reflexivity.
    + intros E. apply write_state; auto. eapply window_position_held; eauto. apply N.ltb_lt. exact E.
Qed.

(** ** Slices *)

Lemma dense_position_cell : forall l i, has_strides l = false -> i < entry_count l -> cell l (pos l i) = i.
Proof.
  intros l i Hl Hi. destruct (pos_spec l i Hi) as [Hs E]. rewrite <- E at 2.
  destruct (pos l i) as [r c]. cbn [fst snd] in *. rewrite <- addr_cell by exact Hs. clear - Hl.
  destruct l; cbn in *; congruence || reflexivity.
Qed.

Lemma slice_cell : forall (h : heap) (ms : list amatrix) b w i, window_rel h ms b w -> w_view w = false ->
  i < count (w_kind w) (w_dim w) -> entry_cell b (position (w_kind w) (w_dim w) i) = (w_matrix w, i).
Proof.
  intros h ms b w i Hb Hv Hi.
  pose proof (matrix_count h ms (@MBase T b) (HWindow w) Hb) as Ec. cbn [mat_layout hkind hdim] in Ec.
  rewrite <- Ec in Hi.
  pose proof (matrix_position h ms (@MBase T b) (HWindow w) i Hb) as Ep. cbn [mat_layout hkind hdim] in Ep.
  rewrite <- Ep. unfold entry_cell, cell_of_region. rewrite (wr_room _ _ _ _ Hb Hv). cbn [r_alloc r_lo].
  rewrite dense_position_cell; [reflexivity|rewrite (wr_view _ _ _ _ Hb); exact Hv|exact Hi].
Qed.

Lemma slice_case : forall (h : heap) (ms : list amatrix) b w first last i, window_rel h ms b w -> w_view w = false ->
  if slice_fits w first last i
  then get_slice b first last = Ok (mkRegion (w_matrix w) first (last - first)) /\ i < last - first
  else get_slice b first last = Panic \/ exists r, get_slice b first last = Ok r /\ r_len r <= i.
Proof.
  intros h ms b w first last i Hb Hv. pose proof (wr_room _ _ _ _ Hb Hv) as Hr.
  assert (Hl : r_len (c_region (bm_data b)) = w_room w) by (rewrite Hr; reflexivity).
  unfold slice_fits.
  destruct (N.ltb_spec first last) as [H1|H1].
  2:{ replace (i <? last - first) with false by lia. rewrite !Bool.andb_false_r.
      left. apply get_slice_panic. lia. }
  replace (first <=? last) with true by lia. cbn [andb].
  destruct (N.leb_spec last (w_room w)) as [H2|H2]; cbn [andb].
  2:{ left. apply get_slice_panic. lia. }
  assert (E : get_slice b first last = Ok (mkRegion (w_matrix w) first (last - first))).
  { rewrite get_slice_ok by lia. unfold slice_of. rewrite Hr. reflexivity. }
  destruct (N.ltb_spec i (last - first)) as [H3|H3]; [auto|]. right. eexists. split; [exact E|exact H3].
Qed.

Lemma slices_simulated : forall st ast o, state_rel st ast -> in_scope ast o ->
  match o with CSliceRead _ _ _ _ | CSliceWrite _ _ _ _ _ => True | _ => False end -> simulated st ast o.
Proof.
  intros st ast o H Hs Ho. destruct o; try contradiction; clear Ho; cbn [in_scope] in Hs.
  - pose proof (lookup_base_rel st ast x H) as Hx.
    destruct (awindow_of ast x) as [w|] eqn:Ew.
    2:{ apply simulated_skip; [exact H|cbn [exec]; rewrite Hx; reflexivity|cbn [astep]; rewrite Ew; reflexivity]. }
    destruct Hx as (b & Eb & Hb). destruct (Hs w eq_refl) as [Hv Hin].
    pose proof (slice_case _ _ b w first last i Hb Hv) as Hc.
    eapply (item_simulated st ast _ (slice_fits w first last i)); [exact H|cbn [exec]; rewrite Eb; reflexivity| |].
    2:{ cbn [astep]. rewrite Ew. reflexivity. }
    destruct (slice_fits w first last i).
    + destruct Hc as [-> Hi]. cbn [bind]. unfold slice_read. cbn [r_len].
      replace (i <? last - first) with true by lia. cbn [assert_ bind].
      specialize (Hin eq_refl). pose proof (slice_cell _ _ b w (first + i) Hb Hv Hin) as Ec.
      pose proof (window_entry_value _ _ b w _ (proj1 H) Hb (window_position_held _ _ b w _ Hb Hin)) as E.
      unfold base_entry in E. rewrite Ec in E. cbn [fst snd] in E.
      unfold region_read. cbn [r_len r_alloc r_lo].
      replace (i <? last - first) with true by lia. rewrite E. reflexivity.
    + destruct Hc as [->|(r & -> & Hr)]; [reflexivity|]. cbn [bind]. unfold slice_read.
      replace (i <? r_len r) with false by lia. reflexivity.
  - pose proof (lookup_mut_rel st ast x H) as Hx.
    destruct (awindow_mut ast x) as [w|] eqn:Ew.
    2:{ apply simulated_skip; [exact H|cbn [exec]; rewrite Hx; reflexivity|cbn [astep]; rewrite Ew; reflexivity]. }
    destruct Hx as (b & Eb & Hb & Hm & Eof). destruct (Hs w Eof) as [Hv Hin].
    pose proof (slice_case _ _ b w first last i Hb Hv) as Hc. rewrite <- get_slice_mut_eq in Hc.
    eapply (done_simulated st ast _ (slice_fits w first last i)
              (written (st_heap st) b (position (w_kind w) (w_dim w) (first + i)) v));
      [exact H|cbn [exec]; rewrite Eb; reflexivity| |cbn [astep]; rewrite Ew; reflexivity|].
    + destruct (slice_fits w first last i).
      * destruct Hc as [-> Hi]. cbn [bind]. unfold slice_write. cbn [r_len].
        replace (i <? last - first) with true by lia. cbn [assert_ bind].
        specialize (Hin eq_refl). pose proof (slice_cell _ _ b w (first + i) Hb Hv Hin) as Ec.
        pose proof (window_entry_value _ _ b w _ (proj1 H) Hb (window_position_held _ _ b w _ Hb Hin)) as E.
        unfold base_entry in E. rewrite Ec in E. cbn [fst snd] in E. unfold written. rewrite Ec. cbn [fst snd].
        unfold region_place, place_write. cbn [r_len r_alloc r_lo].
        replace (i <? last - first) with true by lia. cbn [bind]. cbn [pl_alloc pl_index]. rewrite E. reflexivity.
      * destruct Hc as [->|(r & -> & Hr)]; [reflexivity|]. cbn [bind]. unfold slice_write.
        replace (i <? r_len r) with false by lia. reflexivity.
    + intros Ef. apply write_state; auto. eapply window_position_held; eauto.
Qed.

(** ** Dimensions and expressions *)

Lemma passed_rel : forall (h : heap) (ms : list amatrix) p (u : matrix T) (y : handle), matrix_rel h ms u y -> matrix_rel h ms (wrap p u) (passed_as p y).
Proof. intros h ms [|] u y H; exact H. Qed.

Lemma handle_simulated : forall st ast o u y, state_rel st ast ->
  matrix_rel (st_heap st) (as_matrices ast) u y ->
  exec kern Checked st o = Some (new_expr st (Ok u)) ->
  astep kern ast o = new_handles ast [y] -> simulated st ast o.
Proof.
  intros st ast o u y H Hu E E'. eapply simulated_ok; [exact E|exact E'|].
  apply state_rel_handles; auto.
Qed.

Lemma expr_simulated : forall st ast o, state_rel st ast ->
  match o with
  | CDim _ | CLength _ | CFromRef _ | CRefMut _ | CScalarTimes _ _ _ | CTimesScalar _ _ _ | CPlus _ _ _ _ => True
  | _ => False
  end -> simulated st ast o.
Proof.
  intros st ast o H Ho. destruct o; try contradiction; clear Ho;
    pose proof (lookup_rel st ast x H) as Hx;
    (destruct (ahandle ast x) as [z|] eqn:Ey;
     [|apply simulated_skip; [exact H|cbn [exec]; rewrite Hx; reflexivity
                             |cbn [astep]; rewrite Ey; reflexivity]]);
    destruct Hx as (u & Eu & Hu).
  - eapply simulated_ok; [cbn [exec]; rewrite Eu; reflexivity|cbn [astep]; rewrite Ey; cbn [on]|exact H].
    unfold mat_dim. rewrite (matrix_rel_dim _ _ _ _ Hu). reflexivity.
  - assert (Hlen : match hsizes z with
                   | (Fixed1, Dynamic) | (Dynamic, Fixed1) => mat_length u = Some (fst (hdim z) * snd (hdim z))
                   | _ => mat_length u = None end).
    { unfold mat_length. rewrite (matrix_rel_sizes _ _ _ _ Hu), (matrix_rel_dim _ _ _ _ Hu).
      destruct (matrix_rel_fixed _ _ _ _ Hu) as [F1 F2].
      destruct (hsizes z) as [[] []]; try reflexivity.
      - cbn in F1. rewrite F1 by reflexivity. rewrite N.mul_1_l. reflexivity.
      - cbn in F2. rewrite F2 by reflexivity. rewrite N.mul_1_r. reflexivity. }
    destruct (hsizes z) as [[] []] eqn:Es;
      (eapply simulated_ok; [cbn [exec]; rewrite Eu; cbn [typed]; rewrite Hlen; reflexivity
                            |cbn [astep]; rewrite Ey; cbn [on]; rewrite Es; reflexivity|exact H])
      || (apply simulated_skip; [exact H|cbn [exec]; rewrite Eu; cbn [typed]; rewrite Hlen; reflexivity
                            |cbn [astep]; rewrite Ey; cbn [on]; rewrite Es; reflexivity]).
  - apply (handle_simulated st ast _ (MRef u) (HRef z)); auto;
      [cbn [exec]; rewrite Eu|cbn [astep]; rewrite Ey]; reflexivity.
  - apply (handle_simulated st ast _ (MRefMut u) (HRefMut z)); auto;
      [cbn [exec]; rewrite Eu|cbn [astep]; rewrite Ey]; reflexivity.
  - apply (handle_simulated st ast _ (MScalarMult (wrap p u) s) (HScaled s (passed_as p z))); auto;
      [split; [reflexivity|apply passed_rel; exact Hu]
      |cbn [exec]; rewrite Eu; cbn [typed]; rewrite scalar_times_eq; reflexivity
      |cbn [astep]; rewrite Ey; reflexivity].
  - apply (handle_simulated st ast _ (MScalarMult (wrap p u) s) (HScaled s (passed_as p z))); auto;
      [split; [reflexivity|apply passed_rel; exact Hu]
      |cbn [exec]; rewrite Eu; cbn [typed]; rewrite times_scalar_eq; reflexivity
      |cbn [astep]; rewrite Ey; reflexivity].
  - pose proof (lookup_rel st ast y H) as Hy.
    destruct (ahandle ast y) as [z'|] eqn:Ey'.
    2:{ apply simulated_skip; [exact H|cbn [exec]; rewrite Eu; cbn [typed]; rewrite Hy; reflexivity
                             |cbn [astep]; rewrite Ey; cbn [on]; rewrite Ey'; reflexivity]. }
    destruct Hy as (v & Ev & Hv).
    destruct (kind_eqb (hkind z) (hkind z') && sizes_eqb (hsizes z) (hsizes z')) eqn:Et.
    2:{ apply simulated_skip; [exact H|cbn [exec]; rewrite Eu; cbn [typed]; rewrite Ev; cbn [typed]
                             |cbn [astep]; rewrite Ey; cbn [on]; rewrite Ey'; cbn [on]; rewrite Et; reflexivity].
        rewrite (matrix_rel_kind _ _ _ _ Hu), (matrix_rel_kind _ _ _ _ Hv),
          (matrix_rel_sizes _ _ _ _ Hu), (matrix_rel_sizes _ _ _ _ Hv), Et. reflexivity. }
    assert (Ex : exec kern Checked st (@CPlus T St p q x y) = Some (new_expr st (plus p q u v))).
    { cbn [exec]; rewrite Eu; cbn [typed]; rewrite Ev; cbn [typed].
      rewrite (matrix_rel_kind _ _ _ _ Hu), (matrix_rel_kind _ _ _ _ Hv),
          (matrix_rel_sizes _ _ _ _ Hu), (matrix_rel_sizes _ _ _ _ Hv), Et. reflexivity. }
    assert (Ea : astep kern ast (@CPlus T St p q x y) =
                 demand ast (pos_eqb (hdim z) (hdim z')) (new_handles ast [HSum (passed_as p z) (passed_as q z')])).
    { cbn [astep]; rewrite Ey; cbn [on]; rewrite Ey'; cbn [on]; rewrite Et; reflexivity. }
    rewrite plus_eq in Ex. rewrite (matrix_rel_dim _ _ _ _ Hu), (matrix_rel_dim _ _ _ _ Hv) in Ex.
    change (dim_eqb (hdim z) (hdim z')) with (pos_eqb (hdim z) (hdim z')) in Ex.
    destruct (pos_eqb (hdim z) (hdim z')) eqn:Ed.
    + eapply handle_simulated; [exact H| |exact Ex|exact Ea].
      cbn [matrix_rel]. splits; try (apply passed_rel; assumption).
      * rewrite !wrap_layout, (matrix_rel_dim _ _ _ _ Hu), (matrix_rel_dim _ _ _ _ Hv). apply pos_eqb_eq. exact Ed.
      * rewrite !wrap_layout, (matrix_rel_kind _ _ _ _ Hu), (matrix_rel_kind _ _ _ _ Hv).
        apply Bool.andb_true_iff in Et. apply kind_eqb_eq. apply Et.
      * rewrite wrap_layout. reflexivity.
    + eapply simulated_panic; [exact H|exact Ex|symmetry; exact Ea|reflexivity].
Qed.

(** ** Eval *)

Lemma eval_simulated : forall st ast x, state_rel st ast -> simulated st ast (CEval x).
Proof.
  intros st ast x H. pose proof (lookup_rel st ast x H) as Hx.
  destruct (ahandle ast x) as [y|] eqn:Ey.
  2:{ apply simulated_skip; [exact H|cbn [exec]; rewrite Hx; reflexivity|cbn [astep]; rewrite Ey; reflexivity]. }
  destruct Hx as (u & Eu & Hu). pose proof H as [Hh _].
  destruct (is_dynamic (hsizes y)) eqn:Es.
  2:{ apply simulated_skip; [exact H|cbn [exec]; rewrite Eu; cbn [typed]; rewrite (matrix_rel_sizes _ _ _ _ Hu), Es; reflexivity|].
      cbn [astep]; rewrite Ey; cbn [on]; rewrite Es; reflexivity. }
  assert (Ex : exec kern Checked st (@CEval T St x) = Some (new1 st (eval Checked (st_heap st) u))).
  { cbn [exec]; rewrite Eu; cbn [typed]; rewrite (matrix_rel_sizes _ _ _ _ Hu), Es; reflexivity. }
  assert (Ea : astep kern ast (@CEval T St x) =
               allocate ast (hdim y) (hkind y) (Dynamic, Dynamic) (hvalue (as_matrices ast) y)).
  { cbn [astep]; rewrite Ey; cbn [on]; rewrite Es; reflexivity. }
  assert (Hk : hkind y <> KColumnVector).
  { apply (matrix_rel_dynamic _ _ _ _ Hu). unfold is_dynamic, sizes_eqb in Es.
    destruct (hsizes y) as [[] []]; try discriminate Es. reflexivity. }
  pose proof (matrix_rel_valid _ _ _ _ Hu) as Hv.
  assert (Hcol : column_vector_like (mat_layout u) = true -> fst (mat_dim u) = 1).
  { rewrite <- (matrix_rel_kind _ _ _ _ Hu) in Hk. destruct (mat_layout u); cbn in *; congruence. }
  destruct (c26 Checked (st_heap st) u Hv Hcol) as [_ Hp].
  rewrite (matrix_count _ _ _ _ Hu) in Hp.
  destruct (N.le_gt_cases (count (hkind y) (hdim y) * Npos ssize) isize_max) as [Hc|Hc].
  - rewrite allocate_new in Ea by exact Hc. rewrite <- (matrix_count _ _ _ _ Hu) in Hc.
    destruct (eval_ok Checked (st_heap st) u Hv Hcol Hc)
      as (h' & b & Eb & Ho & Hal & Hvb & Hl & Hm & Hs & Hlen & Hr & _ & Hent).
    rewrite Eb in Ex. eapply simulated_ok; [exact Ex|exact Ea|].
    apply (state_rel_new (St := St) st ast h' b); auto.
    + rewrite Hl. rewrite <- (matrix_rel_kind _ _ _ _ Hu), <- (matrix_rel_dim _ _ _ _ Hu).
      destruct (mat_layout u); reflexivity.
    + rewrite <- (matrix_rel_kind _ _ _ _ Hu), <- (matrix_rel_dim _ _ _ _ Hu).
      destruct (mat_layout u); reflexivity.
    + rewrite Hr. rewrite (matrix_count _ _ _ _ Hu). reflexivity.
    + split; discriminate.
    + intros p Hpp. rewrite Hent by (eapply matrix_stored; eauto).
      apply matrix_entry_value; auto.
  - rewrite allocate_panic in Ea by exact Hc. rewrite (Hp Hc) in Ex.
    eapply simulated_panic; [exact H|exact Ex|symmetry; exact Ea|reflexivity].
Qed.

(** ** Loops *)

Lemma loop_simulated : forall (f : closure (T := T) St) b w n k h ms s,
  heap_rel h ms -> window_rel h ms b w -> (N.of_nat (k + n) <= count (w_kind w) (w_dim w)) ->
  exists h' ms' s' pn,
    for_each_loop Checked b f n (N.of_nat k) (h, s) = Ok (h', s', pn) /\
    avisit f ms w s (map (fun i => position (w_kind w) (w_dim w) (N.of_nat i)) (seq k n)) = (ms', s', pn) /\
    heap_rel h' ms' /\ extends h h' /\ same_roots ms ms'.
Proof.
  intros f b w. induction n as [|n IH]; intros k h ms s Hh Hb Hn.
  - exists h, ms, s, false. cbn [for_each_loop seq map avisit]. splits; auto.
    + intros a l Ha. eauto.
    + apply same_roots_refl.
  - cbn [for_each_loop seq map avisit].
    assert (Hk : N.of_nat k < count (w_kind w) (w_dim w)) by lia.
    assert (Hec : entry_count (bm_layout b) = count (w_kind w) (w_dim w))
      by (apply (matrix_count h ms (@MBase T b) (HWindow w)); auto).
    assert (Epos : pos (bm_layout b) (N.of_nat k) = position (w_kind w) (w_dim w) (N.of_nat k))
      by (apply (matrix_position h ms (@MBase T b) (HWindow w)); auto).
    pose proof (window_position_held h ms b w _ Hb Hk) as Hp.
    destruct (call_closure_ok St Checked h b f (N.of_nat k) s (wr_valid _ _ _ _ Hb)) as (v & Ev & Ec); [lia|].
    rewrite Epos in Ev, Ec. rewrite (window_entry_value h ms b w _ Hh Hb Hp) in Ev. apply some_inj in Ev.
    rewrite <- Ev in Ec. rewrite Ec. set (p := position (w_kind w) (w_dim w) (N.of_nat k)) in *.
    destruct (f s (wvalue ms w p)) as [[s' v'] pn]. cbn [bind].
    pose proof (heap_rel_put h ms b w p v' Hh Hb Hp) as Hh'.
    pose proof (hset_extends h (fst (entry_cell b p)) (snd (entry_cell b p)) v') as He.
    pose proof (same_roots_put ms w p v') as Hr.
    destruct pn.
    + do 4 eexists. splits; [reflexivity|reflexivity|exact Hh'|exact He|exact Hr].
    + destruct (IH (S k) _ _ s' Hh' (window_rel_mono _ _ _ _ _ _ He Hr Hb)) as (h2 & ms2 & s2 & pn & E1 & E2 & E3 & E4 & E5); [lia|].
      exists h2, ms2, s2, pn. replace (N.of_nat k + 1) with (N.of_nat (S k)) by lia. splits; auto.
      * intros a l Ha. destruct (He _ _ Ha) as (l1 & Ha1 & El1). destruct (E4 _ _ Ha1) as (l2 & Ha2 & El2).
        exists l2. split; [exact Ha2|congruence].
      * eapply same_roots_trans; eauto.
Qed.

Lemma for_each_simulated : forall (f : closure (T := T) St) st ast b w s, state_rel st ast ->
  window_rel (st_heap st) (as_matrices ast) b w ->
  exists h' ms' s' pn, for_each Checked (st_heap st) b f s = Ok (h', s', pn) /\
    avisit f (as_matrices ast) w s (positions (w_kind w) (w_dim w)) = (ms', s', pn) /\
    state_rel (mkState h' (st_mats st)) (mkAState ms' (as_handles ast)).
Proof.
  intros f st ast b w s H Hb. pose proof H as [Hh _].
  assert (Hec : entry_count (bm_layout b) = count (w_kind w) (w_dim w))
    by (apply (matrix_count (st_heap st) (as_matrices ast) (@MBase T b) (HWindow w)); auto).
  destruct (loop_simulated f b w (N.to_nat (count (w_kind w) (w_dim w))) 0 _ _ s Hh Hb) as
    (h' & ms' & s' & pn & E1 & E2 & E3 & E4 & E5); [lia|].
  exists h', ms', s', pn. splits.
  - unfold for_each. rewrite (number_of_elements_ok Checked (bm_layout b)), Hec by apply (wr_valid _ _ _ _ Hb).
    exact E1.
  - exact E2.
  - apply (state_rel_heap st ast); auto.
Qed.

Lemma loops_simulated : forall st ast o, state_rel st ast ->
  match o with CForEach _ _ _ | CFill _ _ _ => True | _ => False end -> simulated st ast o.
Proof.
  intros st ast o H Ho. destruct o; try contradiction; clear Ho;
    pose proof (lookup_mut_rel st ast x H) as Hx;
    (destruct (awindow_mut ast x) as [w|] eqn:Ew;
     [|apply simulated_skip; [exact H|cbn [exec]; rewrite Hx; reflexivity
                             |cbn [astep]; rewrite Ew; reflexivity]]);
    destruct Hx as (b & Eb & Hb & Hm & _).
  - destruct (for_each_simulated f st ast b w s H Hb) as (h' & ms' & s' & pn & E1 & E2 & E3).
    eapply simulated_ok; [cbn [exec]; rewrite Eb; cbn [typed]; rewrite E1; reflexivity
                         |cbn [astep]; rewrite Ew; cbn [on]; rewrite E2; reflexivity|exact E3].
  - destruct (for_each_simulated (fun g _ => let '(v, g') := random_scalar g in (g', v, false)) st ast b w s H Hb)
      as (h' & ms' & s' & pn & E1 & E2 & E3).
    eapply simulated_ok; [cbn [exec]; rewrite Eb; cbn [typed]; unfold fill_from_rand; rewrite E1; reflexivity
                         |cbn [astep]; rewrite Ew; cbn [on]; rewrite E2; reflexivity|exact E3].
Qed.

(** ** Blocks *)

Lemma has_blocks_order : forall (h : heap) (ms : list amatrix) b w, window_rel h ms b w ->
  has_blocks w = (is_dynamic (bm_rs b, bm_cs b) && match block_order (bm_layout b) with Some _ => true | None => false end)%bool.
Proof.
  intros h ms b w Hb. unfold has_blocks. rewrite (wr_sizes _ _ _ _ Hb), <- (wr_kind _ _ _ _ Hb).
  f_equal. destruct (bm_layout b); reflexivity.
Qed.

Lemma has_blocks_chain : forall (h : heap) (ms : list amatrix) b w, window_rel h ms b w -> has_blocks w = true ->
  chain (bm_layout b).
Proof.
  intros h ms b w Hb Hw. destruct (w_view w) eqn:Ev; [apply (wr_chain _ _ _ _ Hb Ev)|].
  rewrite (has_blocks_order _ _ _ _ Hb) in Hw. pose proof (wr_view _ _ _ _ Hb) as Hs. rewrite Ev in Hs.
  apply Bool.andb_true_iff in Hw. destruct Hw as [_ Hw].
  destruct (bm_layout b); cbn in *; try discriminate; exact I.
Qed.

Lemma root_cell_shift : forall (a : amatrix) o p, a_kind a <> KUpperTriangular ->
  root_cell a (shift o p) = root_cell a o +
    (fst p * fst (true_stride (kind_layout (a_kind a) (a_dim a))) +
     snd p * snd (true_stride (kind_layout (a_kind a) (a_dim a)))).
Proof.
  intros a o p Hk. unfold root_cell, cell, shift.
  destruct (a_kind a); cbn [kind_layout true_stride fst snd]; try congruence; lia.
Qed.

(** The block of a window is the window on the same matrix. *)
Lemma block_window : forall (h : heap) (ms : list amatrix) b w mut tl d, heap_rel h ms -> window_rel h ms b w ->
  has_blocks w = true -> nonempty d -> inside (w_dim w) tl d -> block_in_place ms w d ->
  block Checked mut b tl d = Ok (block_view mut b tl d) /\
  window_rel h ms (block_view mut b tl d)
    (mkWindow (w_matrix w) (shift (w_origin w) tl) d (w_kind w) (Dynamic, Dynamic) true mut 0).
Proof.
  intros h ms b w mut tl d Hh Hb Hw Hne Hin Hplace. pose proof (has_blocks_chain _ _ _ _ Hb Hw) as Hch.
  rewrite <- (wr_dim _ _ _ _ Hb) in Hin.
  destruct (block_ok Checked h mut b tl d (wr_valid _ _ _ _ Hb) Hch Hne Hin) as (E & Hv & Hch').
  split; [exact E|].
  assert (Hs : has_strides (bm_layout (block_view mut b tl d)) = true).
  { unfold block_view, view. cbn [bm_layout]. destruct (order_of (bm_layout b)); reflexivity. }
  constructor; cbn [w_dim w_kind w_sizes w_view w_mut w_matrix w_origin]; auto.
  - apply block_view_dim.
  - rewrite block_view_kind by exact Hch. apply (wr_kind _ _ _ _ Hb).
  - unfold block_view, view. cbn [bm_data]. apply slice_container_mut_is.
  - split; discriminate.
  - intros _. rewrite <- (wr_kind _ _ _ _ Hb).
    destruct (bm_layout b); cbn in Hch |- *; contradiction || discriminate.
  - discriminate.
  - destruct (wr_root _ _ _ _ Hb) as (a & Ha & Hk & Hi & Hwh & Hc). exists a.
    rewrite (wr_dim _ _ _ _ Hb) in Hin.
    assert (Hnt : w_kind w <> KUpperTriangular).
    { rewrite <- (wr_kind _ _ _ _ Hb). destruct (bm_layout b); cbn in Hch |- *; contradiction || discriminate. }
    assert (Hok : a_kind a <> KUpperTriangular) by congruence.
    splits; auto.
    + unfold inside, shift in *. cbn [fst snd] in *. lia.
    + discriminate.
    + intros p [Hp _]. rewrite block_view_cell.
      assert (Htl : held (w_kind w) (w_dim w) tl)
        by (split; [unfold in_range, inside, nonempty in *; lia|congruence]).
      pose proof (Hc tl Htl) as E0. unfold entry_cell in E0. unfold cell_of_region in *.
      injection E0 as E1 E2. rewrite E1. f_equal. rewrite N.add_assoc, E2.
      rewrite (root_cell_shift a (shift (w_origin w) tl) p Hok). f_equal.
      rewrite <- (wr_kind _ _ _ _ Hb) in Hk. pose proof (wr_dim _ _ _ _ Hb) as Hd.
      pose proof (wr_kind _ _ _ _ Hb) as Hk'.
      assert (Hpl : match w_kind w with
                    | KColumnMajor => snd d = 1 \/ fst (w_dim w) = fst (a_dim a)
                    | _ => fst d = 1 \/ snd (w_dim w) = snd (a_dim a) end).
      { destruct Hplace as [Hf|Hplace]; [|apply Hplace; exact Ha].
        rewrite (proj1 (Hwh Hf)). destruct (w_kind w); auto. }
      rewrite Hk. rewrite <- Hk' in Hpl. rewrite <- Hd in Hpl. unfold told_stride. clear - Hch Hpl Hp.
      destruct Hp as [Hp1 Hp2].
      destruct (bm_layout b); cbn in *; try contradiction; destruct Hpl as [E|E]; try rewrite E; nia.
Qed.

Lemma inside_iff : forall D tl d : N * N,
  ((fst tl + fst d <=? fst D) && (snd tl + snd d <=? snd D))%bool = true <-> inside D tl d.
Proof. intros D tl d. rewrite Bool.andb_true_iff, !N.leb_le. unfold inside. tauto. Qed.

Lemma block_simulated : forall st ast mut x tl d, state_rel st ast ->
  in_scope ast (@CBlock T St mut x tl d) -> simulated st ast (CBlock mut x tl d).
Proof.
  intros st ast mut x tl d H [Hne Hsc].
  assert (Hx : match (if mut then awindow_mut ast x else awindow_of ast x) with
               | Some w => exists b, lookup_block st mut x = Some b /\
                   window_rel (st_heap st) (as_matrices ast) b w /\ awindow_of ast x = Some w
               | None => lookup_block st mut x = None end).
  { unfold lookup_block. destruct mut.
    - pose proof (lookup_mut_rel st ast x H) as Hx. destruct (awindow_mut ast x); [|exact Hx].
      destruct Hx as (b & E1 & E2 & _ & E3). eauto.
    - pose proof (lookup_base_rel st ast x H) as Hx. destruct (awindow_of ast x); [|exact Hx].
      destruct Hx as (b & E1 & E2). eauto. }
  set (ow := if mut then awindow_mut ast x else awindow_of ast x) in *.
  assert (Eow : forall k : awindow -> astate * result T St,
    on ast (if mut then awindow_mut ast x else awindow_of ast x) k = on ast ow k) by reflexivity.
  destruct ow as [w|] eqn:Ew.
  2:{ apply simulated_skip; [exact H|cbn [exec]; rewrite Hx; reflexivity|].
      cbn [astep]. rewrite Eow. reflexivity. }
  destruct Hx as (b & Eb & Hb & Eof). specialize (Hsc w Eof).
  pose proof (has_blocks_order _ _ _ _ Hb) as Hord.
  destruct (has_blocks w) eqn:Ebl.
  2:{ apply simulated_skip; [exact H| |cbn [astep]; rewrite Eow; cbn [on]; rewrite Ebl; reflexivity].
      cbn [exec]. rewrite Eb. cbn [typed]. unfold base_sizes.
      destruct (is_dynamic (bm_rs b, bm_cs b)); [|reflexivity].
      destruct (block_order (bm_layout b)); [discriminate Hord|reflexivity]. }
  assert (Ex : exec kern Checked st (@CBlock T St mut x tl d) = Some (new_view st (block Checked mut b tl d))).
  { cbn [exec]. rewrite Eb. cbn [typed]. unfold base_sizes.
    destruct (is_dynamic (bm_rs b, bm_cs b)); [|discriminate Hord].
    destruct (block_order (bm_layout b)); [reflexivity|discriminate Hord]. }
  assert (Ea : astep kern ast (@CBlock T St mut x tl d) =
    demand ast ((fst tl + fst d <=? fst (w_dim w)) && (snd tl + snd d <=? snd (w_dim w)))
      (new_handles ast [block_of w mut tl d])).
  { cbn [astep]; rewrite Eow; cbn [on]; rewrite Ebl; reflexivity. }
  destruct ((fst tl + fst d <=? fst (w_dim w)) && (snd tl + snd d <=? snd (w_dim w)))%bool eqn:Ein.
  - apply inside_iff in Ein.
    destruct (block_window (st_heap st) (as_matrices ast) b w mut tl d (proj1 H) Hb Ebl Hne Ein Hsc) as (E & Hv).
    rewrite E in Ex. eapply simulated_ok; [exact Ex|exact Ea|].
    apply state_rel_handles; auto.
  - assert (Hout : ~ inside (w_dim w) tl d) by (intros Hi; apply inside_iff in Hi; congruence).
    destruct (block_order (bm_layout b)) as [o|] eqn:Eo.
    2:{ rewrite Bool.andb_false_r in Hord. discriminate. }
    rewrite (block_outside_panics Checked mut b tl d o Eo) in Ex; auto.
    + eapply simulated_panic; [exact H|exact Ex|symmetry; exact Ea|reflexivity].
    + rewrite (wr_dim _ _ _ _ Hb). exact Hout.
Qed.

Lemma split_simulated : forall st ast x s, state_rel st ast -> simulated st ast (CSplit x s).
Proof.
  intros st ast x s H. pose proof (lookup_mut_rel st ast x H) as Hx.
  destruct (awindow_mut ast x) as [w|] eqn:Ew.
  2:{ apply simulated_skip; [exact H|cbn [exec]; rewrite Hx; reflexivity|cbn [astep]; rewrite Ew; reflexivity]. }
  destruct Hx as (b & Eb & Hb & Hm & Eof).
  destruct (is_dynamic (w_sizes w) && kind_eqb (w_kind w) KRowMajor && negb (w_view w))%bool eqn:Et.
  2:{ apply simulated_skip; [exact H| |cbn [astep]; rewrite Ew; cbn [on]; rewrite Et; reflexivity].
      cbn [exec]. rewrite Eb. cbn [typed]. unfold base_sizes. rewrite (wr_sizes _ _ _ _ Hb).
      destruct (is_dynamic (w_sizes w)); [|reflexivity].
      rewrite <- (wr_kind _ _ _ _ Hb), <- (wr_view _ _ _ _ Hb) in Et.
      destruct (bm_layout b); try reflexivity. discriminate Et. }
  apply Bool.andb_true_iff in Et as Et'. destruct Et' as [Et1 Et3].
  apply Bool.andb_true_iff in Et1. destruct Et1 as [Et1 Et2].
  assert (El : bm_layout b = RowMajor (w_dim w)).
  { rewrite <- (wr_kind _ _ _ _ Hb), <- (wr_view _ _ _ _ Hb) in *. rewrite <- (wr_dim _ _ _ _ Hb).
    destruct (bm_layout b); cbn in *; try discriminate. reflexivity. }
  assert (Ex : exec kern Checked st (@CSplit T St x s) =
    Some ('(b0, b1, b2, b3) <- split_in_four_mut Checked b s ;;
          Ok (mkState (st_heap st) (st_mats st ++ [MBase b0; MBase b1; MBase b2; MBase b3]), RNew))).
  { cbn [exec]. rewrite Eb. cbn [typed]. unfold base_sizes. rewrite (wr_sizes _ _ _ _ Hb), Et1, El. reflexivity. }
  set (inb := ((1 <=? fst s) && (fst s <? fst (w_dim w)) && (1 <=? snd s) && (snd s <? snd (w_dim w)))%bool).
  assert (Ea : astep kern ast (@CSplit T St x s) =
    demand ast inb
      (new_handles ast (map (fun k => block_of w true (quarter_origin s k) (quarter_dim (w_dim w) s k)) [Q0; Q1; Q2; Q3]))).
  { cbn [astep]; rewrite Ew; cbn [on]; rewrite Et; reflexivity. }
  assert (Hbl : has_blocks w = true).
  { unfold has_blocks. rewrite Et1. destruct (w_kind w); try discriminate Et2. reflexivity. }
  assert (Hnv : w_view w = false) by (destruct (w_view w); [discriminate Et3|reflexivity]).
  destruct inb eqn:Ein; subst inb.
  - assert (Hi : interior (w_dim w) s) by (unfold interior; lia).
    destruct (split_ok Checked (st_heap st) b (w_dim w) s (wr_valid _ _ _ _ Hb) El Hi) as [E _].
    rewrite E in Ex. eapply simulated_ok; [exact Ex|exact Ea|].
    apply state_rel_handles; auto.
    assert (Hq : forall k, matrix_rel (st_heap st) (as_matrices ast)
       (MBase (block_view true b (quarter_origin s k) (quarter_dim (dim (bm_layout b)) s k)))
       (block_of w true (quarter_origin s k) (quarter_dim (w_dim w) s k))).
    { intros k. destruct (quarter_inside (w_dim w) s k Hi) as [Hne Hin].
      rewrite (wr_dim _ _ _ _ Hb). cbn [matrix_rel block_of].
      apply (block_window (st_heap st) (as_matrices ast) b w); auto; [apply H|]. left. exact Hnv. }
    cbn [map]. constructor; [apply (Hq Q0)|]. constructor; [apply (Hq Q1)|].
    constructor; [apply (Hq Q2)|]. constructor; [apply (Hq Q3)|constructor].
  - assert (Hi : ~ interior (w_dim w) s) by (unfold interior; lia).
    rewrite (split_outside (st_heap st) b (w_dim w) s (wr_valid _ _ _ _ Hb) El Hi) in Ex.
    eapply simulated_panic; [exact H|exact Ex|symmetry; exact Ea|reflexivity].
Qed.

(** ** Products *)

Lemma window_strided_type : forall (h : heap) (ms : list amatrix) b w, window_rel h ms b w ->
  strided_type (bm_layout b) = negb (triangular (w_kind w)).
Proof.
  intros h ms b w Hb. rewrite <- (wr_kind _ _ _ _ Hb). destruct (bm_layout b); reflexivity.
Qed.

Lemma not_triangular : forall k, negb (triangular k) = true <-> k <> KUpperTriangular.
Proof. intros []; cbn; split; congruence. Qed.

Lemma held_range : forall k d p, k <> KUpperTriangular -> (held k d p <-> in_range d p).
Proof. intros k d p H. unfold held. tauto. Qed.

Lemma compact_true_strides : forall (h : heap) (ms : list amatrix) b w, window_rel h ms b w ->
  w_kind w <> KUpperTriangular -> compact ms w -> true_strides (bm_layout b).
Proof.
  intros h ms b w Hb Hnt Hc. pose proof (window_strided_type _ _ _ _ Hb) as Hty.
  rewrite (proj2 (not_triangular _) Hnt) in Hty.
  destruct (w_view w) eqn:Ev.
  2:{ apply operand_true. unfold product_operand. rewrite Hty.
      pose proof (wr_view _ _ _ _ Hb) as E. rewrite Ev in E. destruct (bm_layout b); cbn in E; try discriminate; reflexivity. }
  destruct Hc as [Hc|Hc]; [congruence|].
  destruct (wr_chain _ _ _ _ Hb Ev) as [Hch Hne]. destruct (wr_root _ _ _ _ Hb) as (a & Ha & Hk & Hi & Hwh & He).
  specialize (Hc a Ha). exists (told_stride (bm_layout b)). split; [apply chain_stride; exact Hch|].
  intros p Hp.
  assert (Hok : a_kind a <> KUpperTriangular) by congruence.
  rewrite (wr_dim _ _ _ _ Hb) in Hp.
  assert (H0 : in_range (w_dim w) (0, 0)) by (unfold in_range, nonempty in *; cbn; lia).
  pose proof (He _ (proj2 (held_range _ _ _ Hnt) H0)) as E0. pose proof (He _ (proj2 (held_range _ _ _ Hnt) Hp)) as E1. unfold entry_cell, cell_of_region in E0, E1.
  assert (E0' : r_lo (c_region (bm_data b)) + cell (bm_layout b) (0, 0) = root_cell a (shift (w_origin w) (0, 0))) by congruence.
  assert (E1' : r_lo (c_region (bm_data b)) + cell (bm_layout b) p = root_cell a (shift (w_origin w) p)) by congruence.
  rewrite root_cell_shift in E0', E1' by exact Hok. cbn [fst snd] in E0'. clear E0 E1 He.
  pose proof (wr_dim _ _ _ _ Hb) as Hd. pose proof (wr_kind _ _ _ _ Hb) as Hk'. rewrite Hk in *.
  destruct Hp as [Hp1 Hp2]. rewrite <- Hk' in *. rewrite <- Hd in *. clear - Hch Hc E0' E1' Hp1 Hp2.
  unfold told_stride.
  destruct (bm_layout b); cbn in *; try contradiction; destruct Hc as [Hc|Hc]; rewrite ?Hc in *; nia.
Qed.

Lemma view_no_aliasing : forall (h : heap) (ms : list amatrix) b w, window_rel h ms b w ->
  no_aliasing (bm_layout b).
Proof.
  intros h ms b w Hb Hs. rewrite (wr_view _ _ _ _ Hb) in Hs. destruct (wr_chain _ _ _ _ Hb Hs) as [Hch Hne].
  pose proof (wr_view _ _ _ _ Hb) as Hv. rewrite Hs in Hv. rewrite <- (wr_dim _ _ _ _ Hb) in Hne.
  unfold separated, nonempty in *.
  destruct (bm_layout b); cbn in *; try discriminate; try contradiction; lia.
Qed.

Lemma apart_no_overlap : forall (h : heap) (ms : list amatrix) a u c w, heap_rel h ms -> window_rel h ms a u ->
  window_rel h ms c w -> w_kind u <> KUpperTriangular -> w_kind w <> KUpperTriangular ->
  apart u w -> no_overlap a c.
Proof.
  intros h ms a u c w Hh Ha Hc Nu Nw Hap p q Hp Hq E.
  rewrite (wr_dim _ _ _ _ Ha) in Hp. rewrite (wr_dim _ _ _ _ Hc) in Hq.
  destruct (wr_root _ _ _ _ Ha) as (x & Hx & Hkx & Hix & Hwx & Hcx).
  destruct (wr_root _ _ _ _ Hc) as (y & Hy & Hky & Hiy & Hwy & Hcy).
  pose proof (proj2 (held_range _ _ _ Nu) Hp) as Hp'. pose proof (proj2 (held_range _ _ _ Nw) Hq) as Hq'.
  rewrite (Hcx p Hp'), (Hcy q Hq') in E. injection E as E1 E2.
  assert (x = y) by (rewrite E1 in Hx; congruence). subst y.
  apply (Hap p q Hp Hq E1). apply (root_cell_inj x); auto.
  - apply Hh in Hx. apply Hx.
  - eapply window_held; eauto.
  - eapply window_held; eauto.
Qed.

Lemma window_entries : forall (h : heap) (ms : list amatrix) b w, heap_rel h ms -> window_rel h ms b w ->
  w_kind w <> KUpperTriangular ->
  entries_are h b (fun i j => wvalue ms w (i, j)).
Proof.
  intros h ms b w Hh Hb Hnt i j Hp. rewrite (wr_dim _ _ _ _ Hb) in Hp. eapply window_entry_value; eauto.
  now apply held_range.
Qed.

Lemma same_roots_put_all : forall (ms : list amatrix) w f, same_roots ms (put_all ms w f).
Proof.
  intros ms w f. unfold put_all. destruct nth_error; [apply same_roots_change|apply same_roots_refl].
Qed.

Lemma heap_rel_put_all : forall (h : heap) (ms : list amatrix) (h' : heap) b w (f : N * N -> T),
  heap_rel h ms -> window_rel h ms b w -> w_kind w <> KUpperTriangular ->
  changes_only (fun q => exists p, in_range (w_dim w) p /\ q = entry_cell b p) h h' ->
  (forall p, in_range (w_dim w) p -> base_entry h' b p = Some (f p)) ->
  heap_rel h' (put_all ms w f).
Proof.
  intros h ms h' b w f Hh Hb Hnt (Hl & He & Hs) Hf.
  destruct (wr_root _ _ _ _ Hb) as (a & Ha & Hk & Hi & Hwh & Hc). unfold put_all. rewrite Ha.
  set (inw := fun q : N * N => ((fst (w_origin w) <=? fst q) && (snd (w_origin w) <=? snd q) &&
        in_rangeb (w_dim w) (fst q - fst (w_origin w), snd q - snd (w_origin w)))%bool).
  assert (Hin : forall q, inw q = true <->
            exists p, in_range (w_dim w) p /\ q = shift (w_origin w) p).
  { intros q. unfold inw. rewrite !Bool.andb_true_iff, !N.leb_le, in_rangeb_iff. split.
    - intros [[H1 H2] H3]. eexists. split; [exact H3|]. destruct q. unfold shift. cbn in *. f_equal; lia.
    - intros (p & Hp & ->). unfold in_range, shift in *. cbn [fst snd] in *. lia. }
  apply heap_rel_write with (h := h) (b := b) (P := in_range (w_dim w)) (f := f) (a := a); auto.
  - intros p. now apply held_range.
  - intros p Hp. fold (inw (shift (w_origin w) p)).
    rewrite (proj2 (Hin _)) by eauto. f_equal. destruct p. unfold shift. cbn. f_equal; lia.
  - intros q Hq Hn. fold (inw q). destruct (inw q) eqn:E; [|reflexivity]. apply Hin in E. contradiction.
  - intros q. destruct (inw q) eqn:E; [left|right]; rewrite <- Hin; congruence.
Qed.

Hypothesis kern_shape : ignores_strides kern.

Lemma row_and_column_ext : forall k (A A' B B' : N -> N -> T) i j,
  (forall l, A i l = A' i l) -> (forall l, B l j = B' l j) ->
  row_and_column k A B i j = row_and_column k A' B' i j.
Proof. intros k A A' B B' i j H1 H2. unfold row_and_column. apply map_ext. intros l. now rewrite H1, H2. Qed.

Lemma product_related : forall (h : heap) (ms : list amatrix) alpha a u b v beta c w,
  heap_rel h ms -> window_rel h ms a u -> window_rel h ms b v -> window_rel h ms c w ->
  w_kind u <> KUpperTriangular -> w_kind v <> KUpperTriangular -> w_kind w <> KUpperTriangular ->
  compact ms u -> compact ms v -> compact ms w -> apart u w -> apart v w ->
  compatible (w_dim u) (w_dim v) (w_dim w) ->
  exists h', matmul kern h alpha a b beta c = Ok h' /\ extends h h' /\
    heap_rel h' (put_all ms w
      (aproduct kern alpha (w_dim u) (w_dim v) (wvalue ms u) (wvalue ms v) beta (wvalue ms w))).
Proof.
  intros h ms alpha a u b v beta c w Hh Ha Hb Hc Nu Nv Nw Cu Cv Cw Auw Avw Hd.
  destruct (c32 kern h alpha a b beta c (fun i j => wvalue ms u (i, j)) (fun i j => wvalue ms v (i, j))
              (fun i j => wvalue ms w (i, j))) as (h' & sh & E & Hch & G1 & G2 & G3 & He);
    eauto using wr_valid, compact_true_strides, view_no_aliasing, apart_no_overlap, window_entries.
  { now rewrite (wr_dim _ _ _ _ Ha), (wr_dim _ _ _ _ Hb), (wr_dim _ _ _ _ Hc). }
  exists h'. split; [exact E|]. split; [apply Hch|].
  rewrite (wr_dim _ _ _ _ Hc) in Hch. apply (heap_rel_put_all h ms h' c w); auto.
  intros [i j] Hp. rewrite <- (wr_dim _ _ _ _ Hc) in Hp. rewrite (He i j Hp). f_equal.
  rewrite (wr_dim _ _ _ _ Ha) in *. rewrite (wr_dim _ _ _ _ Hb) in *. unfold aproduct. cbn [fst snd].
  rewrite (kern_shape sh (mkShape (fst (w_dim u)) (snd (w_dim u)) (snd (w_dim v)) (0, 0)%Z (0, 0)%Z (0, 0)%Z)); auto.
Qed.

Lemma compatibleb_iff : forall a b c : N * N, compatibleb a b c = true <-> compatible a b c.
Proof.
  intros a b c. unfold compatibleb, compatible. rewrite !Bool.andb_true_iff, !N.eqb_eq. tauto.
Qed.

Lemma matmul_simulated : forall st ast alpha a b beta c, state_rel st ast ->
  in_scope ast (@CMatmul T St alpha a b beta c) -> simulated st ast (CMatmul alpha a b beta c).
Proof.
  intros st ast alpha a b beta c H Hsc. cbn [in_scope] in Hsc.
  pose proof (lookup_base_rel st ast a H) as Ha. pose proof (lookup_base_rel st ast b H) as Hb.
  pose proof (lookup_mut_rel st ast c H) as Hc.
  destruct (awindow_of ast a) as [u|] eqn:Eu.
  2:{ apply simulated_skip; [exact H|cbn [exec]; rewrite Ha; reflexivity|cbn [astep]; rewrite Eu; reflexivity]. }
  destruct Ha as (a0 & Ea & Ha).
  destruct (awindow_of ast b) as [v|] eqn:Ev.
  2:{ apply simulated_skip; [exact H|cbn [exec]; rewrite Ea, Hb; reflexivity
                            |cbn [astep]; rewrite Eu, Ev; reflexivity]. }
  destruct Hb as (b0 & Eb & Hb).
  destruct (awindow_mut ast c) as [w|] eqn:Ew.
  2:{ apply simulated_skip; [exact H|cbn [exec]; rewrite Ea, Eb, Hc; reflexivity
                            |cbn [astep]; rewrite Eu, Ev, Ew; reflexivity]. }
  destruct Hc as (c0 & Ec & Hc & _ & Eof). specialize (Hsc u v w eq_refl eq_refl Eof).
  pose proof (proj1 H) as Hh.
  assert (Ety : matmul_typed a0 b0 c0 = products_typed u v w).
  { unfold matmul_typed, products_typed, base_sizes.
    rewrite (window_strided_type _ _ _ _ Ha), (window_strided_type _ _ _ _ Hb), (window_strided_type _ _ _ _ Hc).
    rewrite (wr_sizes _ _ _ _ Ha), (wr_sizes _ _ _ _ Hb), (wr_sizes _ _ _ _ Hc). reflexivity. }
  assert (Ex : exec kern Checked st (@CMatmul T St alpha a b beta c) =
     when (products_typed u v w) (Some (done st (matmul kern (st_heap st) alpha a0 b0 beta c0)))).
  { cbn [exec]. rewrite Ea, Eb, Ec. cbn [typed]. rewrite Ety. reflexivity. }
  assert (Es : astep kern ast (@CMatmul T St alpha a b beta c) =
     provided ast (products_typed u v w) (demand ast (compatibleb (w_dim u) (w_dim v) (w_dim w))
       (changed ast (put_all (as_matrices ast) w (aproduct kern alpha (w_dim u) (w_dim v)
          (wvalue (as_matrices ast) u) (wvalue (as_matrices ast) v) beta (wvalue (as_matrices ast) w)))))).
  { cbn [astep]. rewrite Eu, Ev, Ew. reflexivity. }
  destruct (products_typed u v w) eqn:Ept; [|apply simulated_skip; auto].
  destruct (Hsc eq_refl) as (Cu & Cv & Cw & Auw & Avw).
  unfold products_typed in Ept. rewrite !Bool.andb_true_iff, !not_triangular in Ept.
  destruct Ept as [[[Nu Nv] Nw] _].
  cbn [when] in Ex. unfold provided in Es.
  destruct (compatibleb (w_dim u) (w_dim v) (w_dim w)) eqn:Ed.
  - apply compatibleb_iff in Ed.
    destruct (product_related (st_heap st) (as_matrices ast) alpha a0 u b0 v beta c0 w) as (h' & E & He & Hr); auto.
    rewrite E in Ex. eapply simulated_ok; [exact Ex|exact Es|].
    apply state_rel_heap; auto. apply same_roots_put_all.
  - rewrite matmul_incompatible in Ex.
    + eapply simulated_panic; [exact H|exact Ex|symmetry; exact Es|reflexivity].
    + rewrite (wr_dim _ _ _ _ Ha), (wr_dim _ _ _ _ Hb), (wr_dim _ _ _ _ Hc). intros Hd.
      apply compatibleb_iff in Hd. congruence.
Qed.

Lemma fresh_product : forall st ast (h1 : heap) a u b v r shape d, state_rel st ast ->
  window_rel (st_heap st) (as_matrices ast) a u -> window_rel (st_heap st) (as_matrices ast) b v ->
  w_kind u <> KUpperTriangular -> w_kind v <> KUpperTriangular ->
  compact (as_matrices ast) u -> compact (as_matrices ast) v ->
  d = (fst (w_dim u), snd (w_dim v)) -> snd (w_dim u) = fst (w_dim v) ->
  fresh_zeros (st_heap st) h1 r -> h1 = st_heap st ++ [repeat szero (N.to_nat (count (dot_kind shape) d))] ->
  c_region (bm_data r) = mkRegion (length (st_heap st)) 0 (count (dot_kind shape) d) ->
  bm_layout r = kind_layout (dot_kind shape) d -> dim (kind_layout (dot_kind shape) d) = d ->
  mat_size (@MBase T r) = dot_sizes shape -> 
  (fst (dot_sizes shape) = Fixed1 -> fst d = 1) /\ (snd (dot_sizes shape) = Fixed1 -> snd d = 1) ->
  exists h', matmul kern h1 sone a b szero r = Ok h' /\
    state_rel (mkState h' (st_mats st ++ [MBase r]))
      (fst (@new_matrix T St ast d (dot_kind shape) (dot_sizes shape)
         (aproduct kern sone (w_dim u) (w_dim v) (wvalue (as_matrices ast) u) (wvalue (as_matrices ast) v)
            szero (fun _ => szero)))).
Proof.
  intros st ast h1 a u b v r shape d H Ha Hb Nu Nv Cu Cv Ed Hin Hz Eh Hr Hl Hdim Hs Hf. pose proof (proj1 H) as Hh.
  assert (Hd : compatible (dim (bm_layout a)) (dim (bm_layout b)) (dim (bm_layout r))).
  { rewrite (wr_dim _ _ _ _ Ha), (wr_dim _ _ _ _ Hb), Hl, Hdim, Ed. unfold compatible. cbn. auto. }
  assert (Hpo : product_operand (bm_layout r) = true) by (rewrite Hl; destruct shape; reflexivity).
  assert (Hst : has_strides (bm_layout r) = false) by (rewrite Hl; destruct shape; reflexivity).
  pose proof (compact_true_strides _ _ _ _ Ha Nu Cu) as Ta.
  pose proof (compact_true_strides _ _ _ _ Hb Nv Cv) as Tb.
  destruct (dot_fresh kern (st_heap st) h1 a b r (wr_valid _ _ _ _ Ha) (wr_valid _ _ _ _ Hb) Ta Tb Hz Hpo Hst Hd
              _ _ (window_entries _ _ _ _ Hh Ha Nu) (window_entries _ _ _ _ Hh Hb Nv))
    as (h' & sh & E & G1 & G2 & G3 & (Fo & Fv & Fa & Fm & Fd & Fe)).
  destruct Hz as (Ho & Hv & Hal & Hm & Hzero).
  assert (Hl' : length h' = length h1).
  { pose proof (only_allocates_extends _ _ Ho) as Hx.
    destruct (c33 kern h1 sone a b szero r) as [_ Hc33];
      eauto using base_valid_extends, wr_valid, operand_true.
    destruct (Hc33 Hd) as (h2 & E2 & Hch & _). rewrite E in E2. injection E2 as <-. apply Hch. }
  exists h'. split; [exact E|].
  apply state_rel_new; auto.
  - rewrite Hl', Eh, app_length. cbn. lia.
  - destruct shape; cbn; discriminate.
  - intros [i j] [Hp _]. rewrite <- Hdim, <- Hl in Hp. rewrite (Fe i j Hp). f_equal.
    rewrite (wr_dim _ _ _ _ Ha) in *. rewrite (wr_dim _ _ _ _ Hb) in *. unfold aproduct. cbn [fst snd].
    rewrite (kern_shape sh (mkShape (fst (w_dim u)) (snd (w_dim u)) (snd (w_dim v)) (0, 0)%Z (0, 0)%Z (0, 0)%Z)); auto.
Qed.

Lemma dot_simulated : forall st ast shape a b, state_rel st ast ->
  in_scope ast (@CDot T St shape a b) -> simulated st ast (CDot shape a b).
Proof.
  intros st ast shape a b H Hsc. cbn [in_scope] in Hsc.
  pose proof (lookup_base_rel st ast a H) as Ha. pose proof (lookup_base_rel st ast b H) as Hb.
  destruct (awindow_of ast a) as [u|] eqn:Eu.
  2:{ apply simulated_skip; [exact H|cbn [exec]; rewrite Ha; reflexivity|cbn [astep]; rewrite Eu; reflexivity]. }
  destruct Ha as (a0 & Ea & Ha).
  destruct (awindow_of ast b) as [v|] eqn:Ev.
  2:{ apply simulated_skip; [exact H|cbn [exec]; rewrite Ea, Hb; reflexivity
                            |cbn [astep]; rewrite Eu, Ev; reflexivity]. }
  destruct Hb as (b0 & Eb & Hb). specialize (Hsc u v eq_refl eq_refl).
  pose proof (proj1 H) as Hh.
  assert (Ety : dot_typed shape a0 b0 = dots_typed shape u v).
  { unfold dot_typed, dots_typed, base_sizes.
    rewrite (window_strided_type _ _ _ _ Ha), (window_strided_type _ _ _ _ Hb).
    rewrite (wr_sizes _ _ _ _ Ha), (wr_sizes _ _ _ _ Hb). reflexivity. }
  assert (Ex : exec kern Checked st (@CDot T St shape a b) =
     when (dots_typed shape u v) (Some (new1 st (dot shape kern Checked (st_heap st) a0 b0)))).
  { cbn [exec]. rewrite Ea, Eb. cbn [typed]. rewrite Ety. reflexivity. }
  set (d := (fst (w_dim u), snd (w_dim v))).
  assert (Es : astep kern ast (@CDot T St shape a b) =
     provided ast (dots_typed shape u v) (demand ast ((snd (w_dim u) =? fst (w_dim v)) && dot_fits shape d)
       (allocate ast d (dot_kind shape) (dot_sizes shape) (aproduct kern sone (w_dim u) (w_dim v)
          (wvalue (as_matrices ast) u) (wvalue (as_matrices ast) v) szero (fun _ => szero))))).
  { cbn [astep]. rewrite Eu, Ev. reflexivity. }
  destruct (dots_typed shape u v) eqn:Et; [|apply simulated_skip; auto].
  destruct (Hsc eq_refl) as (Cu & Cv). unfold dots_typed in Et. rewrite !Bool.andb_true_iff, !not_triangular in Et.
  destruct Et as [[Nu Nv] Et].
  cbn [when] in Ex. unfold provided in Es.
  assert (Hfit : dot_fits shape d = true).
  { destruct (wr_fixed _ _ _ _ Ha) as [F1 _]. destruct (wr_fixed _ _ _ _ Hb) as [_ F2].
    destruct shape; cbn [dot_fits d fst snd]; [reflexivity| |].
    - apply Bool.andb_true_iff in Et. destruct Et as [Et _]. apply N.eqb_eq. apply F1.
      destruct (w_sizes u) as [rs cs]; destruct rs, cs; cbn in *; congruence.
    - apply Bool.andb_true_iff in Et. destruct Et as [_ Et]. apply N.eqb_eq. apply F2.
      destruct (w_sizes v) as [rs cs]; destruct rs, cs; cbn in *; congruence. }
  rewrite Hfit, Bool.andb_true_r in Es.
  assert (Hsf : shape_fits shape (dim (bm_layout a0)) (dim (bm_layout b0))).
  { rewrite (wr_dim _ _ _ _ Ha), (wr_dim _ _ _ _ Hb). destruct shape; cbn in *; try apply N.eqb_eq; auto. }
  destruct (snd (w_dim u) =? fst (w_dim v)) eqn:Ei.
  2:{ rewrite dot_panics_ in Ex.
      - eapply simulated_panic; [exact H|exact Ex|symmetry; exact Es|reflexivity].
      - rewrite (wr_dim _ _ _ _ Ha), (wr_dim _ _ _ _ Hb). apply N.eqb_neq. exact Ei. }
  apply N.eqb_eq in Ei. cbn [demand] in Es.
  destruct (N.le_gt_cases (count (dot_kind shape) d * Npos ssize) isize_max) as [Hc|Hc].
  2:{ rewrite allocate_panic in Es by exact Hc.
      destruct (c35 shape kern Checked (st_heap st) a0 b0 _ _ (wr_valid _ _ _ _ Ha) (wr_valid _ _ _ _ Hb)
        (compact_true_strides _ _ _ _ Ha Nu Cu) (compact_true_strides _ _ _ _ Hb Nv Cv) Hsf
        (window_entries _ _ _ _ Hh Ha Nu) (window_entries _ _ _ _ Hh Hb Nv)) as (_ & _ & Hp).
      rewrite (wr_dim _ _ _ _ Ha), (wr_dim _ _ _ _ Hb) in Hp. unfold panics in Hp.
      rewrite Hp in Ex by (destruct shape; exact Hc).
      eapply simulated_panic; [exact H|exact Ex|symmetry; exact Es|reflexivity]. }
  rewrite allocate_new in Es by exact Hc.
  assert (X : exists h1 r, dot shape kern Checked (st_heap st) a0 b0 =
      (h2 <- matmul kern h1 sone a0 b0 szero r ;; Ok (h2, r)) /\
    fresh_zeros (st_heap st) h1 r /\ h1 = st_heap st ++ [repeat szero (N.to_nat (count (dot_kind shape) d))] /\
    c_region (bm_data r) = mkRegion (length (st_heap st)) 0 (count (dot_kind shape) d) /\
    bm_layout r = kind_layout (dot_kind shape) d /\ dim (kind_layout (dot_kind shape) d) = d /\
    mat_size (@MBase T r) = dot_sizes shape /\
    ((fst (dot_sizes shape) = Fixed1 -> fst d = 1) /\ (snd (dot_sizes shape) = Fixed1 -> snd d = 1))).
  { destruct shape; cbn [dot dot_kind dot_sizes kind_layout fst snd d] in *;
      unfold dot_mat_mat, dot_row_mat, dot_mat_col;
      rewrite ?row_vector_from_dim, ?column_vector_from_dim, (wr_dim _ _ _ _ Ha), (wr_dim _ _ _ _ Hb).
    - destruct (zeros_ok Checked (st_heap st) KRowMajor (fst (w_dim u)) (snd (w_dim v)) _ eq_refl Hc)
        as (h1 & r & E & L & Hrs & Hcs & _ & Z & Eh & Er).
      exists h1, r. rewrite E. cbn [bind]. splits; auto; [cbn; congruence|discriminate|discriminate].
    - unfold d in Hfit. cbn [dot_fits fst] in Hfit. rewrite Hfit. apply N.eqb_eq in Hfit. unfold d in *. rewrite Hfit in *. unfold count in *. cbn [fst snd] in *.
      rewrite N.mul_1_l in *.
      destruct (row_vector_ok Checked (st_heap st) (snd (w_dim v)) Hc) as (h1 & r & E & L & Hs & Z & Eh & Er).
      exists h1, r. rewrite E. cbn [bind]. splits; auto. discriminate.
    - unfold d in Hfit. cbn [dot_fits snd] in Hfit. rewrite Hfit. apply N.eqb_eq in Hfit. unfold d in *. rewrite Hfit in *. unfold count in *. cbn [fst snd] in *.
      rewrite N.mul_1_r in *.
      destruct (column_vector_ok Checked (st_heap st) (fst (w_dim u)) Hc) as (h1 & r & E & L & Hs & Z & Eh & Er).
      exists h1, r. rewrite E. cbn [bind]. splits; auto. discriminate. }
  destruct X as (h1 & r & E & Z & Eh & Er & L & Hdim & Hs & Hf).
  destruct (fresh_product st ast h1 a0 u b0 v r shape d) as (h' & E' & Hst); auto.
  rewrite E, E' in Ex. eapply simulated_ok; [exact Ex|exact Es|exact Hst].
Qed.

(** ** Histories *)

Lemma step_simulated : forall st ast (o : call T St), state_rel st ast -> in_scope ast o -> simulated st ast o.
Proof.
  intros st ast o H Hs. destruct o; try (now apply access_simulated); try (now apply expr_simulated);
    try (now apply loops_simulated); try contradiction.
  - cbn [in_scope] in Hs. apply (zeros_simulated kern st ast _ k (rows, cols)); auto.
  - now apply fixed_simulated.
  - now apply fixed_vector_simulated.
  - apply (row_simulated kern st ast _ n); auto.
  - apply (column_simulated kern st ast _ n); auto.
  - destruct (rows =? 1) eqn:E.
    + apply N.eqb_eq in E. subst rows. apply (row_simulated kern st ast _ cols); auto.
    + eapply simulated_panic; [exact H| |reflexivity|].
      * cbn [exec]. rewrite row_vector_from_dim, E. reflexivity.
      * cbn [astep]. rewrite E. reflexivity.
  - destruct (cols =? 1) eqn:E.
    + apply N.eqb_eq in E. subst cols. apply (column_simulated kern st ast _ rows); auto.
    + eapply simulated_panic; [exact H| |reflexivity|].
      * cbn [exec]. rewrite column_vector_from_dim, E. reflexivity.
      * cbn [astep]. rewrite E. reflexivity.
  - now apply from_data_simulated.
  - now apply from_data_simulated.
  - now apply slices_simulated.
  - now apply slices_simulated.
  - now apply block_simulated.
  - now apply split_simulated.
  - now apply eval_simulated.
  - now apply matmul_simulated.
  - now apply dot_simulated.
Qed.

Lemma run_simulated : forall (os : list (call T St)) st ast, state_rel st ast -> history_in_scope kern ast os ->
  exists st', run kern Checked st os = Ok (st', snd (arun kern ast os)) /\ state_rel st' (fst (arun kern ast os)).
Proof.
  induction os as [|o os IH]; intros st ast H Hs; cbn [run arun].
  - exists st. auto.
  - destruct Hs as [Ho Hs]. destruct (step_simulated st ast o H Ho) as (st1 & E & H1).
    destruct (IH st1 _ H1 Hs) as (st2 & E2 & H2). rewrite E. cbn [bind]. rewrite E2. cbn [bind].
    destruct (astep kern ast o) as [ast1 r]. cbn [fst snd] in *. destruct (arun kern ast1 os) as [ast2 rs].
    cbn [fst snd] in *. eauto.
Qed.

(** Calls in scope are within their contracts. *)
Lemma scope_within : forall st ast (o : call T St), state_rel st ast -> in_scope ast o -> within_contract st o.
Proof.
  intros st ast o H Hs.
  destruct o; cbn [in_scope within_contract] in *; auto; try contradiction; try (left; apply Hs);
    try (destruct Hs as [Hs _]; split; [destruct l; try discriminate Hs; exact I|congruence]);
    intros u Eu; pose proof (lookup_rel st ast x H) as Hx; destruct (ahandle ast x) as [y|]; try congruence;
    destruct Hx as (u' & Eu' & Hu); rewrite Eu in Eu'; injection Eu' as <-; specialize (Hs y eq_refl).
  - eapply matrix_stored; eauto.
  - rewrite (matrix_count _ _ _ _ Hu). exact Hs.
  - eapply matrix_stored; eauto.
  - rewrite (matrix_count _ _ _ _ Hu). exact Hs.
Qed.

Lemma scope_history_within : forall (os : list (call T St)) st ast, state_rel st ast -> history_in_scope kern ast os ->
  history_within_contract kern Checked st os.
Proof.
  induction os as [|o os IH]; intros st ast H Hs; cbn [history_within_contract]; auto.
  destruct Hs as [Ho Hs]. split; [eapply scope_within; eauto|]. intros st' r E.
  destruct (step_simulated st ast o H Ho) as (st1 & E1 & H1). rewrite E in E1. injection E1 as <- _. eauto.
Qed.

Lemma initial_rel : state_rel (@initial T) ainitial.
Proof. split; [split; [reflexivity|intros [|n] a E; discriminate]|constructor]. Qed.

Lemma related_tables : forall st ast, state_rel st ast -> same_tables st ast.
Proof.
  intros st ast [Hh H]. unfold same_tables. induction H as [|x y xs ys Hxy _ IH]; constructor; auto.
  split; [eapply matrix_rel_dim; eauto|]. split; [eapply matrix_rel_kind; eauto|].
  intros p Hp. eapply matrix_entry_value; eauto.
Qed.

End AbstractProofs.

Section C43.
Context {T : Type} {SC : HScalar T} {St : Type}.

Lemma c43 : forall kern (os : list (call T St)), ignores_strides kern ->
  history_in_scope kern ainitial os ->
  exists st, run kern Checked initial os = Ok (st, snd (arun kern ainitial os)) /\
             same_tables st (fst (arun kern ainitial os)).
Proof.
  intros kern os Hk Hs. destruct (run_simulated kern Hk os initial ainitial initial_rel Hs) as (st & E & H).
  exists st. split; [exact E|]. apply related_tables. exact H.
Qed.

Lemma c43_release : forall kern (os : list (call T St)), ignores_strides kern ->
  history_in_scope kern ainitial os -> Forall completed (snd (arun kern ainitial os)) ->
  exists st, run kern Wrapping initial os = Ok (st, snd (arun kern ainitial os)) /\
             same_tables st (fst (arun kern ainitial os)).
Proof.
  intros kern os Hk Hs Hc. destruct (c43 kern os Hk Hs) as (st & E & H). exists st. split; [|exact H].
  eapply c37_run; eauto.
Qed.

Lemma c43_no_wrap : forall kern (os : list (call T St)), ignores_strides kern ->
  history_in_scope kern ainitial os -> no_wrap_history kern Checked (@initial T) os ->
  exists st, run kern Wrapping initial os = Ok (st, snd (arun kern ainitial os)) /\
             same_tables st (fst (arun kern ainitial os)).
Proof.
  intros kern os Hk Hs Hm. destruct (c43 kern os Hk Hs) as (st & E & H). exists st. split; [|exact H].
  rewrite (c46 kern Checked); auto. eapply scope_history_within; eauto using initial_rel.
Qed.

End C43.
