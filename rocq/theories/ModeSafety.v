(** * ModeSafety: histories that compute no size beyond 2^64 - 1 are the same in both builds (C46). *)

From Coq Require Import ZifyBool ZifyNat ZifyN.
From Verif Require Import Machine MachineFacts Layouts Memory Matrix MatMul Spec MatrixSpec ExprSpec ProductSpec.
From Verif Require Import LayoutFacts MemoryFacts AccessFacts AccessProofs ConstructorProofs BlockProofs.
From Verif Require Import ExprProofs ProductProofs Program HistorySpec.
From Verif Require Import ModeProofs HistoryProofs HistorySafety.
Local Open Scope N_scope.

(** [f] does not depend on the mode. *)
Definition same {A : Type} (f : mode -> outcome A) : Prop := forall m, f m = f Checked.

Lemma same_const : forall (A : Type) (x : outcome A), same (fun _ => x).
Proof. intros A x m. reflexivity. Qed.

Lemma same_bind : forall (A B : Type) (f : mode -> outcome A) (g : mode -> A -> outcome B),
  same f -> (forall a, f Checked = Ok a -> same (fun m => g m a)) -> same (fun m => bind (f m) (g m)).
Proof.
  intros A B f g Hf Hg m. cbv beta. rewrite (Hf m). destruct (f Checked) as [a| |] eqn:E; cbn [bind]; auto.
  now apply Hg.
Qed.

Lemma same_ok : forall (A : Type) (f : mode -> outcome A) a, agrees f -> f Checked = Ok a -> same f.
Proof. intros A f a H E m. rewrite E. now apply H. Qed.

Lemma same_panic : forall (A : Type) (f : mode -> outcome A), (forall m, f m = Panic) -> same f.
Proof. intros A f H m. now rewrite !H. Qed.

Section Same.
Context {T : Type} {SC : HScalar T} {St : Type}.
Notation heap := (@heap T).

Lemma same_from_data : forall rs cs c l, small l -> same (fun m => from_data m rs cs c l).
Proof.
  intros rs cs c l H m. unfold from_data. now rewrite !number_of_elements_ok.
Qed.

Lemma same_zeros : forall (h : heap) k rows cols,
  (forall l, from_dimension k (rows, cols) = Ok l -> small l) ->
  same (fun m => zeros_from_dim m h k rows cols).
Proof.
  intros h k rows cols H.
  destruct (zeros_safe Checked h k rows cols (or_introl eq_refl)) as [E|(h' & b & E & _)].
  - intros m. destruct (zeros_safe m h k rows cols (or_intror H)) as [E'|(h' & b & E' & _ & _ & El)]; [congruence|].
    exfalso. apply H in El as Hd. unfold zeros_from_dim in E, E'. rewrite El in E, E'. cbn [bind] in E, E'.
    unfold from_data in E, E'. rewrite !number_of_elements_ok in E, E' by exact Hd. cbn [bind] in E, E'. congruence.
  - apply (same_ok _ _ (h', b)); [apply agrees_zeros|exact E].
Qed.

Lemma same_row : forall (h : heap) n, same (fun m => row_vector_zeros_from_length m h n).
Proof.
  intros h n m. unfold row_vector_zeros_from_length, from_data. reflexivity.
Qed.
Lemma same_column : forall (h : heap) n, same (fun m => column_vector_zeros_from_length m h n).
Proof. intros h n m. unfold column_vector_zeros_from_length, from_data. reflexivity. Qed.
Lemma same_row_dim : forall (h : heap) r c, same (fun m => row_vector_zeros_from_dim m h r c).
Proof. intros h r c m. unfold row_vector_zeros_from_dim, from_data. reflexivity. Qed.
Lemma same_column_dim : forall (h : heap) r c, same (fun m => column_vector_zeros_from_dim m h r c).
Proof. intros h r c m. unfold column_vector_zeros_from_dim, from_data. reflexivity. Qed.

Lemma same_get : forall (h : heap) x r c, valid h x -> same (fun m => get m h x r c).
Proof.
  intros h x r c Hv. destruct (stored_dec (mat_layout x) (r, c)) as [H|H].
  - destruct (get_stored Checked _ _ _ _ Hv H) as (v & E & _). apply (same_ok _ _ v); [apply agrees_get|exact E].
  - apply same_panic. intros m. now apply get_not_stored.
Qed.

Lemma same_get1d : forall (h : heap) x i, valid h x -> same (fun m => get1d m h x i).
Proof.
  intros h x i Hv. destruct (N.ltb_spec i (entry_count (mat_layout x))) as [H|H].
  - destruct (get1d_stored Checked _ _ _ Hv H) as (v & E & _). apply (same_ok _ _ v); [apply agrees_get1d|exact E].
  - apply same_panic. intros m. now apply get1d_not_stored.
Qed.

Lemma same_set : forall (h : heap) x b r c v, valid h x -> writes_to x = Some b -> same (fun m => set m h x r c v).
Proof.
  intros h x b r c v Hv Hb. destruct (stored_dec (mat_layout x) (r, c)) as [H|H].
  - destruct (set_stored Checked _ _ _ _ _ v Hv Hb H) as (h' & E & _). apply (same_ok _ _ h'); [apply agrees_set|exact E].
  - apply same_panic. intros m. now apply (set_not_stored m _ _ b _ _ v Hv Hb).
Qed.

Lemma same_set1d : forall (h : heap) x b i v, valid h x -> writes_to x = Some b -> same (fun m => set1d m h x i v).
Proof.
  intros h x b i v Hv Hb. destruct (N.ltb_spec i (entry_count (mat_layout x))) as [H|H].
  - intros m. rewrite !(set1d_stored _ _ _ b _ v Hv Hb H). eapply same_set; eauto.
  - apply same_panic. intros m. now apply set1d_not_stored.
Qed.

Lemma same_block : forall (h : heap) mut b tl d o, base_valid h b -> row_strides (bm_layout b) ->
  block_order (bm_layout b) = Some o -> nonempty d -> fst tl + fst d < usize_mod -> snd tl + snd d < usize_mod ->
  same (fun m => block m mut b tl d).
Proof.
  intros h mut b tl d o Hv Ht Ho Hn H1 H2. pose proof (row_strides_chain _ _ Ht Ho) as Hc.
  destruct (inside_dec (dim (bm_layout b)) tl d) as [Hi|Hi].
  - intros m. destruct (block_ok m h mut b tl d Hv Hc Hn Hi) as (-> & _).
    now destruct (block_ok Checked h mut b tl d Hv Hc Hn Hi) as (-> & _).
  - apply same_panic. intros m. apply block_outside_panics with o; auto.
Qed.

Lemma same_eval : forall (h : heap) x, valid h x -> same (fun m => eval m h x).
Proof.
  intros h x Hv.
  destruct (column_vector_like (mat_layout x)) eqn:Ecol; [destruct (N.eq_dec (fst (mat_dim x)) 1)|].
  2:{ apply same_panic. intros m. now apply c26_column. }
  all: destruct (N.leb_spec (entry_count (mat_layout x) * Npos ssize) isize_max) as [Hn|Hn];
    [|apply same_panic; intros m; eapply c26; auto; congruence].
  all: destruct (eval_ok Checked h x Hv ltac:(congruence) Hn) as (h' & b & Ee & _);
    apply (same_ok _ _ (h', b)); [apply agrees_eval|exact Ee].
Qed.

Lemma same_dot : forall kern shape (h : heap) a b,
  (shape = MatrixMatrix -> fst (dim (bm_layout a)) * snd (dim (bm_layout b)) < usize_mod) ->
  same (fun m => dot shape kern m h a b).
Proof.
  intros kern shape h a b H. destruct shape; cbn [dot]; unfold dot_mat_mat, dot_row_mat, dot_mat_col.
  - apply (same_bind _ _ (fun m => zeros_from_dim m h KRowMajor _ _)
      (fun m '(h1, r) => h2 <- matmul kern h1 sone a b szero r ;; Ok (h2, r))).
    + apply same_zeros. intros l E. injection E as <-. now apply H.
    + intros [h1 r] _. apply same_const.
  - intros m. reflexivity.
  - intros m. reflexivity.
Qed.

Lemma same_for_each : forall (S : Type) (h : heap) b (f : closure S) s, base_valid h b ->
  same (fun m => for_each m h b f s).
Proof.
  intros S h b f s Hv m. unfold for_each. rewrite !number_of_elements_ok by apply Hv. cbn [bind].
  destruct (for_each_cells S m b f (N.to_nat (entry_count (bm_layout b))) 0 h s Hv) as (h1 & s1 & p1 & E1 & V1); [lia|].
  destruct (for_each_cells S Checked b f (N.to_nat (entry_count (bm_layout b))) 0 h s Hv) as (h2 & s2 & p2 & E2 & V2); [lia|].
  change (N.of_nat 0) with 0 in *. congruence.
Qed.

(** One call. *)
Lemma exec_same : forall kern st (o : call T St), sound Wrapping st -> within_contract st o -> no_wrap_call st o ->
  forall m, exec kern m st o = exec kern Checked st o.
Proof.
  intros kern st o Hs Ho Hm m.
  assert (NEW1 : forall f : mode -> outcome (heap * base_matrix), same f ->
    @new1 T St st (f m) = new1 st (f Checked)) by (intros f Hf; now rewrite (Hf m)).
  assert (VIEW : forall f : mode -> outcome base_matrix, same f ->
    @new_view T St st (f m) = new_view st (f Checked)) by (intros f Hf; now rewrite (Hf m)).
  assert (ITEM : forall f : mode -> outcome T, same f ->
    @item T St st (f m) = item st (f Checked)) by (intros f Hf; now rewrite (Hf m)).
  assert (DONE : forall f : mode -> outcome heap, same f ->
    @done T St st (f m) = done st (f Checked)) by (intros f Hf; now rewrite (Hf m)).
  assert (BASE : forall n b, lookup_base st n = Some b ->
     base_valid (st_heap st) b /\ row_strides (bm_layout b)).
  { intros n b H. apply lookup_base_inv in H. exact (lookup_sound _ st n _ Hs H). }
  destruct o; cbn [exec]; unfold typed, when;
    repeat match goal with
      | |- context [match lookup ?a ?b with _ => _ end] => destruct (lookup a b) eqn:?; [|reflexivity]
      | |- context [match lookup_base ?a ?b with _ => _ end] => destruct (lookup_base a b) eqn:?; [|reflexivity]
      | |- context [match lookup_mut ?a ?b with _ => _ end] => destruct (lookup_mut a b) eqn:?; [|reflexivity]
      | |- context [match lookup_block ?a ?b ?c with _ => _ end] => destruct (lookup_block a b c) eqn:?; [|reflexivity]
      | |- (if ?b then _ else _) = _ => destruct b eqn:?; [|reflexivity]
      end; cbn [within_contract no_wrap_call] in Ho, Hm; try contradiction;
    try lazymatch goal with |- context [split_in_four_mut] => fail | |- _ => reflexivity end;
    try lazymatch goal with |- Some _ = Some _ => apply (f_equal Some) end.
  - apply (NEW1 (fun m => zeros_from_dim m _ k rows cols)). apply same_zeros.
    exact (no_wrap_zeros (St := St) st k rows cols Hm).
  - apply (NEW1 (fun m => zeros_fixed m _ k rs cs)).
    apply fixed_instance_in in Heqb.
    destruct (c15_matrices Checked (st_heap st) rs cs k Heqb) as (h' & b & E & _).
    apply (same_ok _ _ (h', b)); [apply agrees_zeros_fixed|exact E].
  - apply (NEW1 (fun m => zeros_fixed_vector m _ rs cs k n)).
    apply fixed_vector_instance_in in Heqb.
    destruct (c15_vectors Checked (st_heap st) rs cs k n Heqb) as (h' & b & E & _).
    apply (same_ok _ _ (h', b)); [apply agrees_zeros_fixed_vector|exact E].
  - (* from_vector *)
    destruct (vector_container_new (st_heap st) n) as [[h' c]| |]; cbn [bind]; auto. now rewrite same_from_data.
  - unfold array_container_new. destruct (alloc _ _). now rewrite same_from_data.
  - destruct (if mut then _ else _) as [rg| |]; cbn [bind]; auto. now rewrite same_from_data.
  - (* from_pointer *)
    match goal with H : lookup_block _ _ _ = Some _ |- _ => apply lookup_block_inv in H; rename H into Heqo end.
    destruct (BASE _ _ Heqo) as (Hv & _). specialize (Ho _ Heqo). unfold room in Ho.
    destruct (ptr_add (get_pointer b) off) as [p| |]; cbn [bind]; auto. unfold from_pointer.
    destruct Hv as [[_ Hl] _]. rewrite isize_max_val in Hl.
    rewrite !umul_ok by (rewrite usize_mod_val; lia). cbn [bind].
    destruct (from_raw_parts _ _); cbn [bind]; auto. rewrite same_from_data; auto. destruct o; cbn [small dense_layout]; try exact Logic.I; rewrite usize_mod_val; lia.
  - match goal with H : lookup_block _ _ _ = Some _ |- _ => apply lookup_block_inv in H; rename H into Heqo end.
    destruct (BASE _ _ Heqo) as (Hv & _).
    destruct Ho as (Hne & Hrs & Ho). specialize (Ho _ Heqo). unfold room in Ho.
    pose proof Hne as [Hne0 Hne1].
    assert (Hlast := Ho (fst d - 1, snd d - 1)). cbn [fst snd] in Hlast.
    assert (Hlast' : off + ((fst d - 1) * fst s + (snd d - 1) * snd s) < r_len (c_region (bm_data b))).
    { apply Hlast. split; cbn [fst snd]; lia. }
    assert (Hoff : off <= r_len (c_region (bm_data b))) by (clear - Hlast'; revert Hlast'; generalize ((fst d - 1) * fst s + (snd d - 1) * snd s); lia).
    rewrite ptr_add_ok by (unfold get_pointer, container_get_pointer; cbn [p_off p_region]; lia). cbn [bind].
    unfold get_pointer, container_get_pointer. cbn [p_off p_region]. rewrite N.add_0_l.
    assert (E : forall m, from_pointer_strided m mut o (mkPointer (c_region (bm_data b)) off) d s =
                Ok (view mut o (c_region (bm_data b)) off d s)).
    { intros m'. apply (from_pointer_strided_ok m' (st_heap st) mut o (mkPointer (c_region (bm_data b)) off) d s);
        cbn [p_region p_off]; [apply Hv|exact Hne|unfold span; lia|now apply (row_strides_span o)]. }
    now rewrite !E.
  - apply (ITEM (fun m => get m _ m0 r c)). apply same_get. eapply lookup_sound; eauto.
  - apply (ITEM (fun m => get1d m _ m0 i)). apply same_get1d. eapply lookup_sound; eauto.
  - apply (DONE (fun m => set m _ m0 r c v)). apply writable_base in Heqb. destruct Heqb as (b & Hb).
    eapply same_set; eauto. eapply lookup_sound; eauto.
  - apply (DONE (fun m => set1d m _ m0 i v)). apply writable_base in Heqb. destruct Heqb as (b & Hb).
    eapply same_set1d; eauto. eapply lookup_sound; eauto.
  - specialize (Ho _ Heqo). rewrite !get_unchecked_checked by apply Ho.
    apply (ITEM (fun m => get m _ m0 r c)). apply same_get. eapply lookup_sound; eauto.
  - specialize (Ho _ Heqo). rewrite !get1d_unchecked_checked by (auto; eapply lookup_sound; eauto).
    apply (ITEM (fun m => get1d m _ m0 i)). apply same_get1d. eapply lookup_sound; eauto.
  - specialize (Ho _ Heqo). rewrite !set_unchecked_checked by apply Ho.
    apply (DONE (fun m => set m _ m0 r c v)). apply writable_base in Heqb. destruct Heqb as (b & Hb).
    eapply same_set; eauto. eapply lookup_sound; eauto.
  - specialize (Ho _ Heqo). apply writable_base in Heqb. destruct Heqb as (b & Hb).
    rewrite !(set1d_unchecked_checked _ (st_heap st) m0 b) by (auto; eapply lookup_sound; eauto).
    apply (DONE (fun m => set1d m _ m0 i v)).
    eapply same_set1d; eauto. eapply lookup_sound; eauto.
  - (* block *) apply lookup_block_inv in Heqo. destruct (BASE _ _ Heqo) as (Hv & Ht).
    apply (VIEW (fun m => block m mut b tl d)). destruct Hm as (H1 & H2 & H3). eapply same_block; eauto.
  - (* split *) apply lookup_mut_inv in Heqo. destruct Heqo as [Heqo _]. destruct (BASE _ _ Heqo) as (Hv & Ht).
    specialize (Hm _ Heqo). destruct (bm_layout b) as [D|D|n|n|D s|D s|n s|n s|n] eqn:El;
      [|reflexivity..]. apply (f_equal Some). cbn [dim] in Hm.
    destruct (split_ok m (st_heap st) b _ at_ Hv El Hm) as [-> _].
    now destruct (split_ok Checked (st_heap st) b _ at_ Hv El Hm) as [-> _].
  - (* eval *) apply (NEW1 (fun m => eval m _ m0)). apply same_eval. eapply lookup_sound; eauto.
  - (* for_each *) apply lookup_mut_inv in Heqo. destruct Heqo as [Heqo _]. destruct (BASE _ _ Heqo) as (Hv & _).
    now rewrite (same_for_each St (st_heap st) b f s Hv m).
  - apply lookup_mut_inv in Heqo. destruct Heqo as [Heqo _]. destruct (BASE _ _ Heqo) as (Hv & _).
    unfold fill_from_rand. now rewrite (same_for_each St (st_heap st) b _ s Hv m).
  - (* dot *) apply (NEW1 (fun m => dot shape kern m _ b0 b1)). apply same_dot.
    intros ->. now apply Hm.
Qed.

Lemma step_same : forall kern st (o : call T St), sound Wrapping st -> within_contract st o -> no_wrap_call st o ->
  forall m, step kern m st o = step kern Checked st o.
Proof. intros. unfold step. now rewrite exec_same. Qed.

Lemma run_same : forall kern m (os : list (call T St)) st, sound Wrapping st ->
  history_within_contract kern m st os -> no_wrap_history kern m st os ->
  forall m', run kern m' st os = run kern m st os.
Proof.
  intros kern m os. induction os as [|o os IH]; intros st Hs Ho Hm m'; [reflexivity|].
  destruct Ho as [H1 H2]. destruct Hm as [H3 H4].
  assert (E : forall k, step kern k st o = step kern Wrapping st o).
  { intros k. now rewrite (step_same kern st o Hs H1 H3 k), (step_same kern st o Hs H1 H3 Wrapping). }
  destruct (step_safe kern Wrapping st o Hs H1 (or_intror H3)) as (st1 & r & E1 & Hs1).
  cbn [run]. rewrite (E m'), (E m), E1. cbn [bind].
  rewrite (E m) in H2, H4. specialize (H2 _ _ E1). specialize (H4 _ _ E1). now rewrite (IH st1 Hs1 H2 H4 m').
Qed.

Lemma c46 : forall kern m (os : list (call T St)),
  history_within_contract kern m (@initial T) os -> no_wrap_history kern m (@initial T) os ->
  run kern Wrapping (@initial T) os = run kern Checked (@initial T) os.
Proof.
  intros kern m os H1 H2. rewrite (run_same kern m os initial (initial_sound _) H1 H2 Wrapping).
  symmetry. apply (run_same kern m os initial (initial_sound _) H1 H2).
Qed.

Lemma c46_safe : forall kern m (os : list (call T St)), Forall safe_call os ->
  no_wrap_history kern m (@initial T) os ->
  run kern Wrapping (@initial T) os = run kern Checked (@initial T) os.
Proof. intros kern m os H1 H2. apply (c46 kern m); auto using safe_history. Qed.

End Same.
