(** * GenericCrate: the crate's own implementations of the traits. *)

From Coq Require Import ZifyBool ZifyNat ZifyN.
From Verif Require Import Machine Layouts Memory Matrix MatMul Generic Spec MatrixSpec ExprSpec ProductSpec GenericSpec
  MachineFacts LayoutFacts MemoryFacts AccessFacts AccessProofs ConstructorProofs ExprProofs ProductProofs GenericProofs.
Local Open Scope N_scope.

Section GenericCrate.
Context {T : Type} {SC : HScalar T}.
Notation heap := (@heap T).

Definition g_of (b : base_matrix) : g_base layout container := mkGBase (bm_data b) (bm_layout b).

Lemma of_matrix_layout : forall m (x : matrix T), i_layout (of_matrix m x) = mat_layout x.
Proof. intros m x. induction x; cbn; auto. Qed.

Lemma of_matrix_get : forall m (h : heap) x r c,
  i_get_unchecked (of_matrix m x) h r c = get_unchecked m h x r c.
Proof.
  intros m h x r c. induction x as [b | x IH | x IH | x IH s | x IHx y IHy l]; cbn [of_matrix get_unchecked g_ref g_scalar_mult i_get_unchecked];
    [reflexivity | exact IH | exact IH | now rewrite IH | now rewrite IHx, IHy].
Qed.

Lemma of_matrix_get1d : forall m (h : heap) x i,
  i_get1d_unchecked (of_matrix m x) h i = get1d_unchecked m h x i.
Proof.
  intros m h x i. induction x as [b | x IH | x IH | x IH s | x IHx y IHy l]; cbn [of_matrix get1d_unchecked g_ref g_scalar_mult i_get1d_unchecked];
    [reflexivity | exact IH | exact IH | now rewrite IH | now rewrite IHx, IHy].
Qed.

Lemma of_matrix_mut : forall m (x : matrix T) b, writes_to x = Some b ->
  (forall r c, i_get_unchecked_mut (of_matrix m x) r c = get_unchecked_mut m x r c) /\
  (forall i, i_get1d_unchecked_mut (of_matrix m x) i = get1d_unchecked_mut m x i).
Proof.
  intros m x b. induction x as [b' | x IH | x IH | x IH s | x IHx y IHy l]; cbn [writes_to]; try discriminate.
  - intros E. destruct (container_is_mut (bm_data b')) eqn:M; [|discriminate].
    cbn [of_matrix get_unchecked_mut get1d_unchecked_mut]. rewrite M. split; reflexivity.
  - intros E. exact (IH E).
Qed.

Lemma model_access : forall m (h : heap) x,
  (forall r c, g_get (LT := crate_layouts m) h (of_matrix m x) r c = get m h x r c) /\
  (forall i, g_get1d (LT := crate_layouts m) h (of_matrix m x) i = get1d m h x i) /\
  (forall b, writes_to x = Some b ->
     (forall r c v, g_set (LT := crate_layouts m) h (of_matrix m x) r c v = set m h x r c v) /\
     (forall i v, g_set1d (LT := crate_layouts m) h (of_matrix m x) i v = set1d m h x i v)).
Proof.
  intros m h x. split; [|split].
  - intros r c. unfold g_get, get. rewrite of_matrix_layout. cbn [t_dim crate_layouts bind]. now rewrite of_matrix_get.
  - intros i. unfold g_get1d, get1d. rewrite of_matrix_layout. cbn [t_number_of_elements crate_layouts].
    now rewrite of_matrix_get1d.
  - intros b Hb. destruct (of_matrix_mut m x b Hb) as [E1 E2]. split.
    + intros r c v. unfold g_set, g_get_mut, set, get_mut. rewrite of_matrix_layout. cbn [t_dim crate_layouts bind].
      now rewrite E1.
    + intros i v. unfold g_set1d, g_get1d_mut, set1d, get1d_mut. rewrite of_matrix_layout.
      cbn [t_number_of_elements crate_layouts]. now rewrite E2.
Qed.

Lemma model_addition : forall m (x y : matrix T),
  g_addition (LT := crate_layouts m) (of_matrix m x) (of_matrix m y) =
  (z <- addition_new x y ;; Ok (of_matrix m z)).
Proof.
  intros m x y. unfold g_addition, addition_new. rewrite !of_matrix_layout. cbn [t_dim t_index_layout crate_layouts bind].
  destruct (dim_eqb (dim (mat_layout x)) (dim (mat_layout y))); reflexivity.
Qed.

Lemma model_scalar : forall m (x : matrix T) s,
  g_scalar_mult (of_matrix m x) s = of_matrix m (scalar_mult_new x s) /\ g_ref (of_matrix m x) = of_matrix m (from_ref x).
Proof. split; reflexivity. Qed.

Lemma model_from_data : forall m rs cs c l,
  g_from_data (LT := crate_layouts m) (CT := @crate_containers T) c l =
  (b <- from_data m rs cs c l ;; Ok (g_of b)).
Proof.
  intros m rs cs c l. unfold g_from_data, from_data.
  cbn [t_number_of_elements crate_layouts d_number_of_elements crate_containers].
  destruct (number_of_elements m l) as [n| |]; cbn [bind]; auto.
  destruct (n <=? container_number_of_elements c); reflexivity.
Qed.

Lemma loop_ext : forall (S : Type) (f g : N -> S -> outcome S) n i s, (forall i s, f i s = g i s) ->
  loop n i f s = loop n i g s.
Proof.
  intros S f g n. induction n as [|n IH]; intros i s H; cbn [loop]; auto. rewrite H.
  destruct (g i s); cbn [bind]; auto.
Qed.

Lemma model_eval : forall m (h : heap) x,
  g_eval (LT := crate_layouts m) h (of_matrix m x) =
  ('(h', b) <- eval m h x ;; Ok (h', g_of b)).
Proof.
  intros m h x. unfold g_eval, eval. rewrite of_matrix_layout. cbn [t_dim t_number_of_elements t_index_type crate_layouts bind].
  unfold g_zeros_from_dim, zeros_from_dim. cbn [t_from_dimension t_number_of_elements crate_layouts].
  destruct (from_dimension (index_kind (mat_layout x)) (fst (dim (mat_layout x)), snd (dim (mat_layout x)))) as [l| |];
    cbn [bind]; auto.
  destruct (number_of_elements m l) as [n| |]; cbn [bind]; auto.
  destruct (vector_container_new h n) as [[h1 c]| |]; cbn [bind]; auto.
  cbn [holds crate_containers]. rewrite (model_from_data m Dynamic Dynamic).
  destruct (from_data m Dynamic Dynamic c l) as [b| |]; cbn [bind]; auto.
  destruct (number_of_elements m (mat_layout x)) as [k| |]; cbn [bind]; auto.
  unfold for_range.
  rewrite (loop_ext _ _ (fun index h => v <- get1d_unchecked m h x index ;;
          p <- base_get1d_unchecked_mut m b index ;; place_write h p v)).
  - destruct (loop (N.to_nat k) 0 _ h1); reflexivity.
  - intros i hi. now rewrite of_matrix_get1d.
Qed.

Lemma model_for_each : forall (St : Type) m (h : heap) b (f : closure St) s,
  g_for_each (LT := crate_layouts m) h (g_of b) f s = for_each m h b f s.
Proof.
  intros St m h b f s. unfold g_for_each, for_each. cbn [t_number_of_elements crate_layouts g_of gb_layout].
  destruct (number_of_elements m (bm_layout b)) as [n| |]; cbn [bind]; auto.
  generalize 0 as k. generalize (h, s) as hs. induction (N.to_nat n) as [|j IH]; intros hs k; auto.
  cbn [g_for_each_loop for_each_loop].
  change (g_call_closure (LT := crate_layouts m) (g_of b) f k hs) with (call_closure m b f k hs).
  destruct (call_closure m b f k hs) as [[hs' p]| |]; cbn [bind]; auto. destruct p; auto.
Qed.

Lemma model_matmul : forall kern (h : heap) m alpha a b beta c,
  g_matmul (LT := crate_layouts m) kern h alpha (g_of a) (g_of b) beta (g_of c) = matmul kern h alpha a b beta c.
Proof. reflexivity. Qed.

Lemma model_slice : forall c first last,
  g_get_slice (CT := @crate_containers T) c first last = container_get_slice c first last.
Proof. reflexivity. Qed.

(** ** The crate's layouts and containers meet the contract *)

Section Own.
Context {U KU : Type} (m : mode) (o : own_layouts U KU).
Notation LT := (program_layouts m o).

Definition crate_listing (l : layout) : listing := mkListing (entry_count l) (pos l).

Lemma crate_numbers : forall l, small l -> numbers (LT := LT) (inl l) (dim l) (crate_listing l).
Proof.
  intros l Hs. split; [reflexivity|]. split.
  - cbn [t_number_of_elements program_layouts]. now rewrite number_of_elements_ok.
  - cbn [crate_listing ls_count ls_pos]. intros i Hi. destruct (pos_spec l i Hi) as [Hst E]. split; [apply Hst|].
    cbn [t_convert_2d_1d program_layouts]. rewrite convert_2d_1d_ok by (rewrite <- ?surjective_pairing; auto).
    now rewrite E.
Qed.

Lemma crate_lays_out : forall l, small l -> (forall p, stored l p -> cell l p < usize_mod) ->
  lays_out (LT := LT) (inl l) (dim l) (crate_listing l) (fun i => cell l (pos l i)).
Proof.
  intros l Hs Ha. split; [now apply crate_numbers|]. cbn [crate_listing ls_count ls_pos]. intros i Hi.
  destruct (pos_spec l i Hi) as [Hst E]. specialize (Ha _ Hst).
  cbn [t_convert_1d_raw t_convert_2d_raw program_layouts].
  assert (Ea : addr l (fst (pos l i)) (snd (pos l i)) = cell l (pos l i)).
  { rewrite addr_cell; rewrite <- surjective_pairing; auto. }
  split.
  - rewrite convert_1d_raw_ok; auto; rewrite raw_of_index_pos, Ea; auto.
  - rewrite convert_2d_raw_ok by (rewrite ?Ea, <- ?surjective_pairing; auto). now rewrite Ea.
Qed.

Lemma index_layout_small : forall l, small l -> small (index_layout l).
Proof. intros l H. apply (same_kind_small l); auto using index_layout_dim, index_layout_kind. Qed.

Lemma crate_listing_index : forall l i,
  ls_count (crate_listing (index_layout l)) = ls_count (crate_listing l) /\ ls_pos (crate_listing (index_layout l)) i = ls_pos (crate_listing l) i.
Proof. intros l i. cbn. now rewrite index_layout_count, index_layout_pos. Qed.

Lemma numbers_same : forall (l : layout + U) d ls ls', numbers (LT := LT) l d ls ->
  ls_count ls' = ls_count ls -> (forall i, ls_pos ls' i = ls_pos ls i) -> numbers (LT := LT) l d ls'.
Proof.
  intros l d ls ls' (H1 & H2 & H3) Ec Ep. split; [exact H1|]. split; [now rewrite Ec|]. intros i Hi.
  rewrite Ep. apply H3. now rewrite <- Ec.
Qed.

Lemma crate_indexed : forall l, small l -> indexed (LT := LT) (inl l) (dim l) (crate_listing l).
Proof.
  intros l Hs. exists (inl (index_layout l)). split; [reflexivity|]. split; [|split].
  - rewrite <- index_layout_dim. apply (numbers_same _ _ (crate_listing (index_layout l))).
    + apply crate_numbers. now apply index_layout_small.
    + symmetry. apply (crate_listing_index l 0).
    + intros i. symmetry. apply (crate_listing_index l i).
  - cbn [t_index_type program_layouts]. now rewrite index_layout_kind.
  - cbn [t_index_layout program_layouts]. now destruct l.
Qed.

Lemma index_cell : forall l p, stored l p -> cell (index_layout l) p = number l p.
Proof.
  intros l [r c] Hp. rewrite <- index_layout_number. pose proof (proj2 (index_layout_stored l (r, c)) Hp) as Hq.
  rewrite <- addr_cell, <- idx_number by auto. 
  destruct l as [d | d | n | n | d s | d s | n s | n s | n]; reflexivity.
Qed.

Lemma crate_makes : forall l, small l -> entry_count l < usize_mod ->
  (column_vector_like l = true -> fst (dim l) = 1) ->
  makes (LT := LT) (inl (index_kind l)) (dim l) (crate_listing l) (fun i => i).
Proof.
  intros l Hs Hn Hc. exists (inl (index_layout l)).
  assert (Hcell : forall i, i < entry_count l -> cell (index_layout l) (pos l i) = i).
  { intros i Hi. destruct (pos_spec l i Hi) as [Hst _]. rewrite index_cell by auto. now apply number_pos. }
  split; [|split; [|split]].
  - cbn [t_from_dimension program_layouts]. now rewrite from_dimension_index.
  - destruct (crate_lays_out (index_layout l)) as [H1 H2].
    { now apply index_layout_small. }
    { intros [r c] Hp. rewrite index_cell by (now apply index_layout_stored).
      pose proof (proj1 (index_layout_stored l _) Hp) as Hq. pose proof (number_bound l r c Hq). lia. }
    split.
    + rewrite <- index_layout_dim. apply (numbers_same _ _ (crate_listing (index_layout l))); auto.
      * symmetry. apply (crate_listing_index l 0).
      * intros i. symmetry. apply (crate_listing_index l i).
    + cbn [crate_listing ls_count ls_pos] in *. intros i Hi. rewrite index_layout_count in H2.
      destruct (H2 i Hi) as [E1 E2]. rewrite index_layout_pos, Hcell in E1, E2 by auto. split; assumption.
  - auto.
  - intros i j _ _ E. exact E.
Qed.

End Own.

Lemma crate_contiguous : forall k r, contiguous (CT := @crate_containers T) (mkContainer k r) r /\ keeps_mut (CT := @crate_containers T) (mkContainer k r) (r_len r) (cell_of_region r).
Proof.
  intros k r.
  assert (Hk : keeps (CT := @crate_containers T) (mkContainer k r) (r_len r) (cell_of_region r)).
  { split; [reflexivity|]. intros i Hi h v E. cbn [d_get_unchecked crate_containers].
    unfold container_get_unchecked, region_read. cbn [c_region].
    replace (i <? r_len r) with true by lia. cbn [cell_of_region fst snd] in E. now rewrite E. }
  split; split; auto.
  split.
  - intros i j _ _ E. injection E as E. lia.
  - intros i Hi. cbn [d_get_unchecked_mut crate_containers]. unfold container_get_unchecked_mut. cbn [c_region].
    now rewrite region_place_ok.
Qed.

Lemma crate_holds_vectors : holds_vectors (CT := @crate_containers T).
Proof. intros r. exact (crate_contiguous VectorContainer r). Qed.

Lemma crate_containers_meet : forall k r, contiguous (CT := @crate_containers T) (mkContainer k r) r /\
  keeps_mut (CT := @crate_containers T) (mkContainer k r) (r_len r) (cell_of_region r) /\
  holds_vectors (CT := @crate_containers T).
Proof. intros k r. destruct (crate_contiguous k r). splits; auto using crate_holds_vectors. Qed.

Lemma model_operators : forall m (x y : matrix T) s,
  g_addition (LT := crate_layouts m) (of_matrix m x) (of_matrix m y) = (z <- addition_new x y ;; Ok (of_matrix m z)) /\
  g_scalar_mult (of_matrix m x) s = of_matrix m (scalar_mult_new x s) /\
  g_ref (of_matrix m x) = of_matrix m (from_ref x).
Proof. intros m x y s. split; [apply model_addition | apply model_scalar]. Qed.

End GenericCrate.

Lemma model_base : forall {T St : Type} {SC : HScalar T} m (h : @heap T) b (f : closure St) s c l rs cs first last,
  g_for_each (LT := crate_layouts m) h (mkGBase (bm_data b) (bm_layout b)) f s = for_each m h b f s /\
  g_from_data (LT := crate_layouts m) (CT := @crate_containers T) c l =
    (b <- from_data m rs cs c l ;; Ok (mkGBase (bm_data b) (bm_layout b))) /\
  g_get_slice (CT := @crate_containers T) c first last = container_get_slice c first last.
Proof. intros. split; [|split]; [apply (model_for_each St) | apply model_from_data | apply model_slice]. Qed.

Lemma crate_meets : forall {U KU : Type} m (o : own_layouts U KU) l, small l ->
  exists ls,
    ls_count ls = entry_count l /\
    (forall i, i < entry_count l -> stored l (ls_pos ls i) /\ number l (ls_pos ls i) = i) /\
    numbers (LT := program_layouts m o) (inl l) (dim l) ls /\
    indexed (LT := program_layouts m o) (inl l) (dim l) ls /\
    ((forall p, stored l p -> cell l p < usize_mod) ->
       lays_out (LT := program_layouts m o) (inl l) (dim l) ls (fun i => cell l (ls_pos ls i))) /\
    (entry_count l < usize_mod -> (column_vector_like l = true -> fst (dim l) = 1) ->
       makes (LT := program_layouts m o) (inl (index_kind l)) (dim l) ls (fun i => i)).
Proof.
  intros U KU m o l Hs. exists (crate_listing l). split; [reflexivity|]. split; [|split; [|split; [|split]]].
  - intros i Hi. split; [apply (pos_spec l i Hi) | now apply number_pos].
  - now apply crate_numbers.
  - now apply crate_indexed.
  - intros Ha. now apply crate_lays_out.
  - intros Hn Hc. now apply crate_makes.
Qed.
