(** * Proofs about threads that hold disjoint entries: C56. *)

From Coq Require Import ZifyBool ZifyNat ZifyN.
From Verif Require Import Machine MachineFacts Layouts Memory Matrix MatMul Spec MatrixSpec ExprSpec ProductSpec.
From Verif Require Import LayoutFacts MemoryFacts AccessFacts AccessProofs ConstructorProofs BlockProofs.
From Verif Require Import ExprProofs ProductProofs Program HistorySpec HistoryProofs HistorySafety Borrow BorrowFacts BorrowProofs.
From Verif Require Import OwnerProofs AliasProofs Dealloc DeallocProofs Threads ThreadProofs.
Local Open Scope N_scope.

Section Entries.
Context {T : Type} {SC : HScalar T} {St : Type}.
Notation heap := (@heap T).

Definition ecov (D : nat * N -> Prop) (x : matrix T) : Prop := forall q, has_cell x q -> D q.

Lemma ren_cell : forall f b p, entry_cell (ren_base f b) p = (f (fst (entry_cell b p)), snd (entry_cell b p)).
Proof. reflexivity. Qed.

Lemma ren_has_cell : forall f (x : matrix T) a i, has_cell x (a, i) -> has_cell (ren f x) (f a, i).
Proof.
  intros f x a i. induction x as [b | x IH | x IH | x IH s | x IHx y IHy l]; cbn [ren has_cell]; auto; [|tauto].
  intros (p & Hp & E). exists p. split; auto. rewrite ren_cell, <- E. reflexivity.
Qed.

Lemma ent_entry : forall f D h h' x, rel f D h h' -> valid h x -> ecov D x ->
  forall p, stored (mat_layout x) p -> entry h' (ren f x) p = entry h x p.
Proof.
  intros f D h h' x R. unfold entry, ecov.
  induction x as [b | x IH | x IH | x IH s | x IHx y IHy l]; cbn [valid has_cell mat_layout value ren]; auto.
  - intros _ H p Hp. unfold base_entry. rewrite ren_cell. cbn [fst snd]. apply (rel_get _ _ _ _ R). apply H.
    exists p. split; auto.
  - intros Hv H p Hp. now rewrite IH.
  - intros (Hx & Hy & Hd & Hk & ->) H p Hp.
    apply (proj1 (index_layout_stored _ _)) in Hp.
    assert (Hp' : stored (mat_layout y) p) by (apply (same_kind_stored (mat_layout x)); auto).
    rewrite (IHx Hx (fun q Hq => H q (or_introl Hq)) p Hp), (IHy Hy (fun q Hq => H q (or_intror Hq)) p Hp'). reflexivity.
Qed.

Lemma ent_get : forall f D m h h' x r c, rel f D h h' -> valid h x -> valid h' (ren f x) -> ecov D x ->
  get m h' (ren f x) r c = get m h x r c.
Proof.
  intros f D m h h' x r c R Hv Hv' Hc. destruct (stored_dec (mat_layout x) (r, c)) as [Hp|Hp].
  - destruct (get_stored m h x r c Hv Hp) as (v & -> & Ev).
    destruct (get_stored m h' (ren f x) r c Hv') as (v' & -> & Ev'); [now rewrite ren_layout|].
    rewrite (ent_entry f D h h') in Ev' by auto. congruence.
  - rewrite !get_not_stored by (rewrite ?ren_layout; auto). reflexivity.
Qed.
Lemma ent_get1d_unchecked : forall f D m h h' x i, rel f D h h' -> valid h x -> valid h' (ren f x) -> ecov D x ->
  i < entry_count (mat_layout x) -> get1d_unchecked m h' (ren f x) i = get1d_unchecked m h x i.
Proof.
  intros f D m h h' x i R Hv Hv' Hc Hi.
  destruct (get1d_unchecked_ok m h x i Hv Hi) as (v & -> & Ev).
  destruct (get1d_unchecked_ok m h' (ren f x) i Hv') as (v' & -> & Ev'); [now rewrite ren_layout|].
  rewrite ren_layout, (ent_entry f D h h') in Ev' by (auto; now apply pos_spec). congruence.
Qed.
Lemma ent_get1d : forall f D m h h' x i, rel f D h h' -> valid h x -> valid h' (ren f x) -> ecov D x ->
  get1d m h' (ren f x) i = get1d m h x i.
Proof.
  intros f D m h h' x i R Hv Hv' Hc. destruct (N.ltb_spec i (entry_count (mat_layout x))) as [Hi|Hi].
  - destruct (get1d_stored m h x i Hv Hi) as (v & -> & Ev).
    destruct (get1d_stored m h' (ren f x) i Hv') as (v' & -> & Ev'); [now rewrite ren_layout|].
    rewrite ren_layout, (ent_entry f D h h') in Ev' by (auto; now apply pos_spec). congruence.
  - rewrite !get1d_not_stored by (rewrite ?ren_layout; auto). reflexivity.
Qed.

Lemma ren_writes_to : forall f (x : matrix T) b, writes_to x = Some b -> writes_to (ren f x) = Some (ren_base f b).
Proof.
  intros f x b. induction x; cbn [ren writes_to]; try discriminate; auto.
  unfold container_is_mut. cbn [ren_base bm_data ren_cont c_kind].
  destruct (c_kind (bm_data b0)); try discriminate; intros E; injection E as <-; reflexivity.
Qed.

Lemma ent_set : forall f D m h h' x r c v, rel f D h h' -> valid h x -> valid h' (ren f x) -> ecov D x ->
  is_writable x = true -> orel (rel f D) (set m h x r c v) (set m h' (ren f x) r c v).
Proof.
  intros f D m h h' x r c v R Hv Hv' Hc Hw. apply writable_base in Hw. destruct Hw as (b & Hb).
  pose proof (ren_writes_to f _ _ Hb) as Hb'. destruct (stored_dec (mat_layout x) (r, c)) as [Hp|Hp].
  - destruct (set_stored m h x b r c v Hv Hb Hp) as (h1 & -> & -> & _).
    destruct (set_stored m h' (ren f x) _ r c v Hv' Hb') as (h2 & -> & -> & _); [now rewrite ren_layout|].
    cbn [orel]. rewrite ren_cell. cbn [fst snd]. apply rel_hset; auto. apply Hc.
    rewrite <- surjective_pairing. eapply has_cell_base; eauto. exists (r, c). split; auto.
    now rewrite <- (writes_to_layout _ _ Hb).
  - destruct (set_not_stored m h x b r c v Hv Hb Hp) as [-> _].
    destruct (set_not_stored m h' (ren f x) _ r c v Hv' Hb') as [-> _]; [now rewrite ren_layout|]. exact I.
Qed.
Lemma ent_set1d : forall f D m h h' x i v, rel f D h h' -> valid h x -> valid h' (ren f x) -> ecov D x ->
  is_writable x = true -> orel (rel f D) (set1d m h x i v) (set1d m h' (ren f x) i v).
Proof.
  intros f D m h h' x i v R Hv Hv' Hc Hw. pose proof Hw as Hb. apply writable_base in Hb. destruct Hb as (b & Hb).
  pose proof (ren_writes_to f _ _ Hb) as Hb'. destruct (N.ltb_spec i (entry_count (mat_layout x))) as [Hi|Hi].
  - rewrite (set1d_stored m h x b i v Hv Hb Hi). rewrite (set1d_stored m h' (ren f x) _ i v Hv' Hb') by now rewrite ren_layout.
    rewrite ren_layout. now apply ent_set.
  - rewrite !set1d_not_stored by (rewrite ?ren_layout; auto). exact I.
Qed.

Lemma entry_d : forall D b p, ecov D (@MBase T b) -> stored (bm_layout b) p ->
  D (fst (entry_cell b p), snd (entry_cell b p)).
Proof. intros D b p H Hp. rewrite <- surjective_pairing. apply H. exists p. auto. Qed.

Lemma ent_for_each : forall f D (S : Type) m (h h' : heap) b (g : closure (T := T) S) s, rel f D h h' -> base_valid h b -> ecov D (MBase b) ->
  orel (lrel f D) (for_each m h b g s) (for_each m h' (ren_base f b) g s).
Proof.
  intros f D S m h h' b g s H Hv Hb. unfold for_each. cbn [ren_base bm_layout].
  assert (Hn : number_of_elements m (bm_layout b) = Ok (entry_count (bm_layout b))) by (apply number_of_elements_ok, Hv).
  rewrite Hn. cbn [bind].
  assert (G : forall n i h0 h0' s, i + N.of_nat n <= entry_count (bm_layout b) -> rel f D h0 h0' ->
    orel (lrel f D) (for_each_loop m b g n i (h0, s)) (for_each_loop m (ren_base f b) g n i (h0', s))).
  2:{ apply G; auto. lia. }
  clear s. induction n as [|n IH]; intros i h0 h0' s Hi R; cbn [for_each_loop].
  - split; auto.
  - apply orel_bind with (R := lrel f D).
    + unfold call_closure. pose proof (ren_base_mut1d f m b i) as Ep.
      rewrite (base_get1d_unchecked_mut_ok m h b i) in * by (auto; lia).
      destruct (base_get1d_unchecked_mut m (ren_base f b) i) as [p'| |]; cbn [orel] in Ep; try contradiction. subst p'.
      assert (Hp : D (fst (entry_cell b (pos (bm_layout b) i)), snd (entry_cell b (pos (bm_layout b) i)))).
      { apply entry_d; auto. apply pos_spec. lia. }
      cbn [bind]. rewrite (ren_place_read f D h0 h0') by auto. apply orel_same. intros v _. destruct (g s v) as [[s' v'] pn].
      apply orel_bind with (R := rel f D); [now apply ren_write|]. intros h1 h1' H1. split; auto.
    + intros [[h1 s1] pn1] [[h1' s1'] pn1'] (R1 & R2 & R3). cbn [fst snd] in *. subst s1' pn1'.
      destruct pn1; [split; auto|]. apply IH; auto. lia.
Qed.

(** ** Loops with a bound *)

Lemma orel_range : forall (S S' : Type) (R : S -> S' -> Prop) f f' n s s', R s s' ->
  (forall k t t', k < n -> R t t' -> orel R (f k t) (f' k t')) -> orel R (for_range n f s) (for_range n f' s').
Proof.
  intros S S' R f f' n s s' Hs Hf. unfold for_range.
  assert (G : forall k i s s', i + N.of_nat k <= n -> R s s' -> orel R (loop k i f s) (loop k i f' s')).
  { induction k as [|k IH]; intros i t t' Hi Ht; cbn [loop]; [exact Ht|].
    eapply orel_bind; [apply Hf; auto; lia|]. intros a b Hab. apply IH; auto. lia. }
  apply G; auto. lia.
Qed.

Lemma collect_bound : forall (A : Type) (f g : N -> outcome A) n i, (forall k, i <= k < i + N.of_nat n -> f k = g k) ->
  collect n i f = collect n i g.
Proof.
  intros A f g n. induction n as [|n IH]; intros i H; cbn [collect]; auto.
  rewrite H by lia. rewrite (IH (i + 1)); auto. intros k Hk. apply H. lia.
Qed.

(** ** Products *)

(** The cells that a product reads or writes of an operand. *)
Definition reach (h : heap) (D : nat * N -> Prop) (b : base_matrix) : Prop :=
  forall s, stride (bm_layout b) = Ok s ->
    told_ok h b s /\ forall p, in_range (dim (bm_layout b)) p -> D (told_cell b s p).

Lemma true_reach : forall (h : heap) D b, base_valid h b -> true_strides (bm_layout b) -> ecov D (MBase b) -> reach h D b.
Proof.
  intros h D b Hv Ht Hc s Es. destruct (true_told h b Hv Ht) as (s' & Es' & Hok & Hcell).
  assert (s' = s) by congruence. subst s'. split; auto. intros p Hp. rewrite Hcell by auto. apply Hc. exists p. split; auto.
  apply strided_stored; auto. now apply true_strided_type.
Qed.

Lemma reach_extends : forall (h h' : heap) D b, extends h h' -> reach h D b -> reach h' D b.
Proof. intros h h' D b He H s Es. destruct (H s Es) as [H1 H2]. split; auto. eapply told_ok_extends; eauto. Qed.

Lemma ent_ptr_read : forall f D (h h' : heap) b s i j, rel f D h h' -> told_ok h b s -> in_range (dim (bm_layout b)) (i, j) ->
  D (told_cell b s (i, j)) ->
  ptr_read h' (ren_ptr f (get_pointer b)) (gemm_offset (isizes s) i j) = ptr_read h (get_pointer b) (gemm_offset (isizes s) i j).
Proof.
  intros f D h h' b s i j R Hok Hp Hd. rewrite (gemm_offset_told h b) by auto.
  unfold ptr_read, get_pointer, container_get_pointer. cbn [ren_ptr p_off p_region].
  replace (Z.of_N 0 + Z.of_N (told s (i, j)))%Z with (Z.of_N (told s (i, j))) by lia.
  destruct (0 <=? _)%Z; auto. rewrite N2Z.id. unfold region_read. cbn [ren_region r_len r_alloc r_lo].
  destruct (_ <? _); auto. rewrite (rel_get _ _ _ _ R); auto.
Qed.
Lemma ent_ptr_write : forall f D (h h' : heap) b s i j v, rel f D h h' -> told_ok h b s -> in_range (dim (bm_layout b)) (i, j) ->
  D (told_cell b s (i, j)) ->
  orel (rel f D) (ptr_write h (get_pointer b) (gemm_offset (isizes s) i j) v)
                 (ptr_write h' (ren_ptr f (get_pointer b)) (gemm_offset (isizes s) i j) v).
Proof.
  intros f D h h' b s i j v R Hok Hp Hd. rewrite (gemm_offset_told h b) by auto.
  unfold ptr_write, get_pointer, container_get_pointer. cbn [ren_ptr p_off p_region].
  replace (Z.of_N 0 + Z.of_N (told s (i, j)))%Z with (Z.of_N (told s (i, j))) by lia.
  destruct (0 <=? _)%Z; [|exact I]. rewrite N2Z.id. unfold region_place. cbn [ren_region r_len r_alloc r_lo].
  destruct (_ <? _); [|exact I]. cbn [bind]. now apply (ren_write f D h h' (mkPlace _ _)).
Qed.

Lemma ent_matmul : forall f D kern (h h' : heap) alpha a b beta c, rel f D h h' ->
  reach h D a -> reach h D b -> reach h D c \/ covered D (@MBase T c) ->
  orel (rel f D) (matmul kern h alpha a b beta c)
    (matmul kern h' alpha (ren_base f a) (ren_base f b) beta (ren_base f c)).
Proof.
  intros f D kern h h' alpha a b beta c R Ha Hb Hc. unfold matmul. cbn [ren_base bm_layout].
  apply orel_same. intros u Hd. apply orel_same. intros sa Ea. apply orel_same. intros sb Eb. apply orel_same. intros sc Ec.
  unfold assert_ in Hd. destruct (matmul_dims_ok _ _ _) eqn:Hdim; [|discriminate Hd]. clear Hd.
  unfold matmul_dims_ok in Hdim. rewrite !ren_get_pointer. unfold gemm. cbv zeta.
  change (as_isize (fst sa), as_isize (snd sa)) with (isizes sa).
  change (as_isize (fst sb), as_isize (snd sb)) with (isizes sb).
  change (as_isize (fst sc), as_isize (snd sc)) with (isizes sc).
  assert (W : forall o o', orel (fun t t' => rel f D t t' /\ extends h t) o o' -> orel (rel f D) o o').
  { intros [t| |] [t'| |]; cbn [orel]; auto. tauto. }
  apply W. apply orel_range; [split; auto using extends_refl|]. intros i t t' Hi (Rt & Xt).
  apply orel_range; [split; auto|]. intros j v v' Hj (Rv & Xv).
  destruct (reach_extends _ _ _ _ Xv Ha sa Ea) as [Oa Da].
  destruct (reach_extends _ _ _ _ Xv Hb sb Eb) as [Ob Db].
  assert (Pc : in_range (dim (bm_layout c)) (i, j)) by (split; cbn [fst snd]; lia).
  unfold gemm_entry. cbn [g_k g_sa g_sb g_sc].
  match goal with |- orel _ (bind ?x _) (bind ?y _) => replace y with x end.
  2:{ apply collect_bound. intros l Hl.
      assert (Pa : in_range (dim (bm_layout a)) (i, l)) by (split; cbn [fst snd]; lia).
      assert (Pb : in_range (dim (bm_layout b)) (l, j)) by (split; cbn [fst snd]; lia).
      rewrite (ent_ptr_read f D v v' a sa), (ent_ptr_read f D v v' b sb) by auto. reflexivity. }
  apply orel_same. intros ps _.
  assert (RD : ptr_read v' (ren_ptr f (get_pointer c)) (gemm_offset (isizes sc) i j) =
               ptr_read v (get_pointer c) (gemm_offset (isizes sc) i j)).
  { destruct Hc as [Hc|Hc].
    - destruct (reach_extends _ _ _ _ Xv Hc sc Ec) as [Oc Dc]. apply (ent_ptr_read f D v v' c sc); auto.
    - apply (ren_ptr_read f D v v'); auto using (covered_base _ _ Hc).  }
  rewrite RD. apply orel_same. intros old _.
  match goal with |- orel _ (ptr_write _ _ _ ?w) _ => set (val := w) end.
  assert (WR : orel (rel f D) (ptr_write v (get_pointer c) (gemm_offset (isizes sc) i j) val)
                 (ptr_write v' (ren_ptr f (get_pointer c)) (gemm_offset (isizes sc) i j) val)).
  { destruct Hc as [Hc|Hc].
    - destruct (reach_extends _ _ _ _ Xv Hc sc Ec) as [Oc Dc]. apply (ent_ptr_write f D v v' c sc); auto.
    - apply (ren_ptr_write f D v v'); auto using (covered_base _ _ Hc). }
  destruct (ptr_write v (get_pointer c) _ val) as [g| |] eqn:E1, (ptr_write v' _ _ _) as [g'| |]; cbn [orel] in WR |- *; auto.
  split; auto. eapply extends_trans; [exact Xv|]. apply ptr_write_touches in E1. apply E1.
Qed.

(** ** Evaluation *)

Lemma appended_extends : forall (h h' : heap) b, appended h h' b -> extends h h'.
Proof. intros h h' b (l & -> & _). apply extends_app. Qed.

Lemma ent_eval : forall f D m (h h' : heap) x, rel f D h h' -> valid h x -> valid h' (ren f x) -> ecov D x -> placed h x ->
  orel (nrel f D (length h) (length h')) (eval m h x) (eval m h' (ren f x)).
Proof.
  intros f D m h h' x R Hv Hv' Hx Hp. unfold eval. rewrite ren_layout.
  pose proof (ren_zeros f D m h h' (index_kind (mat_layout x)) (fst (dim (mat_layout x))) (snd (dim (mat_layout x))) R) as Z.
  destruct (zeros_from_dim m h _ _ _) as [[h1 b1]| |] eqn:E1, (zeros_from_dim m h' _ _ _) as [[h2 b2]| |] eqn:E2;
    cbn [orel] in Z; try contradiction; auto. cbn [bind].
  destruct Z as (R1 & R2 & R3). cbn [fst snd] in *. subst b2.
  assert (X1 : extends h h1) by (eapply appended_extends, zeros_appended; exact E1).
  assert (X2 : extends h' h2) by (eapply appended_extends, zeros_appended; exact E2).
  rewrite number_of_elements_ok by (apply (valid_small x h); auto). cbn [bind].
  set (g := ext f (length h) (length h')) in *. set (D1 := also D (length h)) in *.
  assert (Eg : ren g x = ren f x) by (apply ext_old; exact Hp).
  eapply orel_bind with (R := fun t t' => rel g D1 t t' /\ extends h1 t /\ extends h2 t').
  - apply orel_range; [splits; auto using extends_refl|]. intros k t t' Hk (Rt & Xt & Xt').
    assert (Vt : valid t x) by (eapply valid_extends; [|exact Hv]; eapply extends_trans; eauto).
    assert (Vt' : valid t' (ren g x)) by (rewrite Eg; eapply valid_extends; [|exact Hv']; eapply extends_trans; eauto).
    assert (Ec : get1d_unchecked m t' (ren f x) k = get1d_unchecked m t x k).
    { rewrite <- Eg. eapply ent_get1d_unchecked; eauto. intros q Hq. left. now apply Hx. }
    rewrite Ec. apply orel_same. intros v _.
    assert (Q : orel (rel g D1) (p <- base_get1d_unchecked_mut m b1 k ;; place_write t p v)
       (p <- base_get1d_unchecked_mut m (ren_base g b1) k ;; place_write t' p v)).
    { eapply ren_place_set; eauto; [apply ren_base_mut1d|]. intros p Ep. apply base_mut1d_in in Ep.
      apply (also_new (T := T) D _ b1 R3). exact Ep. }
    destruct (p <- base_get1d_unchecked_mut m b1 k ;; place_write t p v) as [u| |] eqn:F1,
      (p <- base_get1d_unchecked_mut m (ren_base g b1) k ;; place_write t' p v) as [u'| |] eqn:F2; cbn [orel] in *; auto.
    splits; auto.
    + apply bind_ok in F1. destruct F1 as (p & _ & F1). eapply extends_trans; [exact Xt|]. eapply place_write_touches; eauto.
    + apply bind_ok in F2. destruct F2 as (p & _ & F2). eapply extends_trans; [exact Xt'|]. eapply place_write_touches; eauto.
  - intros h3 h4 (R4 & _). split; auto.
Qed.

Lemma reach_also : forall (h : heap) D n b, reach h D b -> reach h (also D n) b.
Proof. intros h D n b H s Es. destruct (H s Es) as [H1 H2]. split; auto. intros p Hp. left. auto. Qed.

Lemma ent_dot : forall f D shape kern m (h h' : heap) a b, rel f D h h' ->
  reach h D a -> placed h (@MBase T a) -> reach h D b -> placed h (@MBase T b) ->
  orel (nrel f D (length h) (length h')) (dot shape kern m h a b) (dot shape kern m h' (ren_base f a) (ren_base f b)).
Proof.
  intros f D shape kern m h h' a b R Ha Pa Hb Pb.
  assert (Ea : ren_base (ext f (length h) (length h')) a = ren_base f a) by (pose proof (ext_old f _ (length h') _ Pa) as E; cbn [ren] in E; congruence).
  assert (Eb : ren_base (ext f (length h) (length h')) b = ren_base f b) by (pose proof (ext_old f _ (length h') _ Pb) as E; cbn [ren] in E; congruence).
  assert (G : forall z z' : outcome (heap * base_matrix), orel (nrel f D (length h) (length h')) z z' ->
    (forall h1 c, z = Ok (h1, c) -> appended h h1 c) ->
    orel (nrel f D (length h) (length h'))
      ('(h1, c) <- z ;; h2 <- matmul kern h1 sone a b szero c ;; Ok (h2, c))
      ('(h1, c) <- z' ;; h2 <- matmul kern h1 sone (ren_base f a) (ren_base f b) szero c ;; Ok (h2, c))).
  { intros [[h1 b1]| |] [[h2 b2]| |] Q Hz; cbn [orel] in Q; try contradiction; auto. cbn [bind].
    destruct Q as (R1 & R2 & R3). cbn [fst snd] in *. subst b2. rewrite <- Ea, <- Eb.
    pose proof (appended_extends _ _ _ (Hz _ _ eq_refl)) as X.
    eapply orel_bind; [apply ent_matmul; eauto|].
    - apply reach_also. eapply reach_extends; eauto.
    - apply reach_also. eapply reach_extends; eauto.
    - right. now apply also_new.
    - intros h3 h4 R4. split; auto. }
  destruct shape; cbn [dot]; unfold dot_mat_mat, dot_row_mat, dot_mat_col; apply G;
    first [now apply ren_zeros | now apply ren_row_dim | now apply ren_column_dim | intros h1 c Hz];
    first [eapply zeros_appended; exact Hz | eapply row_dim_appended; exact Hz | eapply column_dim_appended; exact Hz].
Qed.

(** ** Calls *)

Definition eheld (ms : list (matrix T)) (q : nat * N) : Prop := exists x, In x ms /\ has_cell x q.

Lemma ent_exec : forall f D kern m st st' (o : call T St), sound m st -> sound m st' -> careful m st o ->
  (forall x, In x (st_mats st) -> ecov D x) ->
  st_mats st' = map (ren f) (st_mats st) -> rel f D (st_heap st) (st_heap st') ->
  optrel (orel (out f D st st')) (exec kern m st o) (exec kern m st' o).
Proof.
  intros f D kern m [h ms] [h' ms'] o Hso Hso' (Hsafe & _ & Hcare) Hc E R.
  pose proof (sound_placed _ _ Hso) as Hp. cbn [st_mats st_heap] in *. subst ms'.
  assert (LK : forall x, lookup (mkState h' (map (ren f) ms)) x = option_map (ren f) (lookup (mkState h ms) x)).
  { intros x. unfold lookup. cbn [st_mats]. apply nth_error_map. }
  assert (LB : forall x, lookup_base (mkState h' (map (ren f) ms)) x = option_map (ren_base f) (lookup_base (mkState h ms) x)).
  { intros x. unfold lookup_base. rewrite LK. destruct (lookup _ x) as [[]|]; reflexivity. }
  assert (LM : forall x, lookup_mut (mkState h' (map (ren f) ms)) x = option_map (ren_base f) (lookup_mut (mkState h ms) x)).
  { intros x. unfold lookup_mut. rewrite LB. destruct (lookup_base _ x) as [b|]; cbn; auto.
    unfold container_is_mut. cbn. destruct (c_kind (bm_data b)); reflexivity. }
  assert (LV : forall mu x, lookup_block (mkState h' (map (ren f) ms)) mu x = option_map (ren_base f) (lookup_block (mkState h ms) mu x)).
  { intros [] x; cbn [lookup_block]; auto. }
  assert (AV : forall x w, lookup (mkState h ms) x = Some w -> ecov D w /\ placed h w /\ valid h w /\ valid h' (ren f w)).
  { intros x w Hw. splits; [apply Hc; eapply nth_error_In; exact Hw | exact (lookup_placed _ _ _ Hp Hw) | |].
    - destruct (lookup_sound _ _ _ _ Hso Hw). auto.
    - assert (Hw' : lookup (mkState h' (map (ren f) ms)) x = Some (ren f w)) by (rewrite LK, Hw; reflexivity).
      destruct (lookup_sound _ _ _ _ Hso' Hw'). auto. }
  assert (AB : forall x b, lookup_base (mkState h ms) x = Some b ->
     ecov D (MBase b) /\ placed h (MBase b) /\ valid h (MBase b) /\ valid h' (MBase (ren_base f b))).
  { intros x b Hb. apply lookup_base_inv in Hb. exact (AV x _ Hb). }
  assert (AM : forall x b, lookup_mut (mkState h ms) x = Some b ->
     ecov D (MBase b) /\ placed h (MBase b) /\ valid h (MBase b) /\ valid h' (MBase (ren_base f b))).
  { intros x b Hb. apply lookup_mut_writable in Hb. destruct Hb as [Hb _]. exact (AV x _ Hb). }
  assert (MB : forall x b, lookup_mut (mkState h ms) x = Some b -> lookup_base (mkState h ms) x = Some b).
  { intros x b Hb. unfold lookup_mut in Hb. destruct (lookup_base _ x) as [b'|]; [|discriminate].
    destruct (container_is_mut _); congruence. }
  set (S1 := mkState h ms) in *. set (S2 := mkState h' (map (ren f) ms)) in *.
  assert (NEW1 : forall g g', orel (nrel f D (length h) (length h')) g g' ->
     orel (out (St := St) f D S1 S2) (new1 S1 g) (new1 S2 g')).
  { intros g g' Q. eapply orel_bind; [exact Q|]. intros [h1 b1] [h2 b2] (R1 & R2 & R3). cbn [fst snd] in *. subst b2.
    split; auto. exists (ext f (length h) (length h')). cbn [st_mats st_heap fst]. split; [|right; exact R1]. unfold S1, S2. cbn [st_mats].
    rewrite map_app. cbn [map ren]. f_equal. apply map_ext_in. intros x Hx. symmetry. apply ext_old.
    unfold all_placed in Hp. rewrite Forall_forall in Hp. exact (Hp x Hx). }
  assert (SAME : forall r : result T St, out f D S1 S2 (S1, r) (S2, r)).
  { intros r. split; auto. exists f. split; auto. }
  assert (VIEW : forall g g', orel (renrel f) g g' -> orel (out (St := St) f D S1 S2) (new_view S1 g) (new_view S2 g')).
  { intros g g' Q. eapply orel_bind; [exact Q|]. intros b b' ->. split; auto. exists f. cbn [st_mats st_heap fst].
    split; [now rewrite map_app|]. left. split; auto. }
  assert (EXPR : forall g g', orel (fun x y => y = ren f x) g g' -> orel (out (St := St) f D S1 S2) (new_expr S1 g) (new_expr S2 g')).
  { intros g g' Q. eapply orel_bind; [exact Q|]. intros b b' ->. split; auto. exists f. cbn [st_mats st_heap fst].
    split; [now rewrite map_app|]. left. split; auto. }
  assert (ITEM : forall g g', g' = g -> orel (out (St := St) f D S1 S2) (item S1 g) (item S2 g')).
  { intros g g' ->. apply orel_same. intros b _. apply SAME. }
  assert (DONE : forall g g', orel (rel f D) g g' -> orel (out (St := St) f D S1 S2) (done S1 g) (done S2 g')).
  { intros g g' Q. eapply orel_bind; [exact Q|]. intros h1 h2 R1. split; auto. exists f. split; auto. }
  assert (LOOP : forall g g', orel (lrel f D) g g' -> orel (out (St := St) f D S1 S2) (looped S1 g) (looped S2 g')).
  { intros g g' Q. eapply orel_bind; [exact Q|]. intros [[h1 s1] p1] [[h2 s2] p2] (R1 & R2 & R3). cbn [fst snd] in *. subst s2 p2.
    split; auto. exists f. split; auto. }
  destruct o; cbn [safe_call] in Hsafe; try contradiction; cbn in Hcare; try contradiction;
    cbn [exec]; cbv zeta; cbn [st_heap]; rewrite ?LK, ?LB, ?LM, ?LV; unfold typed, when; cbn [option_map];
    repeat match goal with
      | |- optrel _ (match ?x with _ => _ end) (match option_map _ ?x with _ => _ end) =>
          destruct x eqn:?; cbn [option_map optrel]; auto
      end;
    rewrite ?ren_writable, ?ren_layout, ?ren_size; unfold mat_length, mat_dim; rewrite ?ren_layout, ?ren_size.
  all: change (st_heap S1) with h; change (st_heap S2) with h'.
  all: repeat match goal with
      | |- optrel _ (if ?x then _ else _) (if ?x then _ else _) => destruct x eqn:?; cbn [optrel]; auto
      end; cbn [optrel].
  all: try (apply NEW1; first [now apply ren_zeros | now apply ren_fixed | now apply ren_fixed_vector | now apply ren_row |
    now apply ren_column | now apply ren_row_dim | now apply ren_column_dim]).
  all: repeat match goal with
      | H : lookup _ _ = Some _ |- _ => apply AV in H; destruct H as (? & ? & ? & ?)
      end.
  all: try (apply ITEM; first [eapply ent_get; eauto | eapply ent_get1d; eauto]; fail).
  - apply NEW1. eapply orel_bind; [apply ren_vector; exact R|]. intros [h1 c1] [h2 c2] Q. exact (ren_new_data f D _ _ m rs cs l _ _ Q).
  - apply NEW1. pose proof (ren_array f D h h' n R) as Q.
    destruct (array_container_new h _) as [h1 c1], (array_container_new h' _) as [h2 c2]. exact (ren_new_data f D _ _ m rs cs l _ _ Q).
  - apply DONE. now apply ent_set.
  - apply DONE. now apply ent_set1d.
  - apply SAME.
  - destruct (mat_size m0) as [[] []]; cbn [optrel]; auto; apply SAME.
  - cbn [ren_base bm_layout]. unfold base_sizes. cbn [bm_rs bm_cs]. destruct (is_dynamic _); cbn [optrel]; auto.
    destruct (block_order (bm_layout b)); cbn [optrel]; auto. apply VIEW, ren_block.
  - unfold base_sizes. cbn [ren_base bm_rs bm_cs bm_layout]. destruct (is_dynamic _); cbn [optrel]; auto.
    change (mkBase (ren_cont f (bm_data b)) (bm_layout b) (bm_rs b) (bm_cs b)) with (ren_base f b).
    destruct (bm_layout b) as [D0|D0|n0|n0|D0 s|D0 s|n0 s|n0 s|n0]; cbn [optrel]; auto.
    eapply orel_bind; [apply ren_split|]. intros [[[b0 b1] b2] b3] [[[c0 c1] c2] c3] Q. cbn [four map] in Q.
    injection Q as -> -> -> ->. split; auto. exists f. cbn [st_mats st_heap fst]. split; [rewrite map_app; reflexivity|].
    left. split; auto.
  - apply EXPR. reflexivity.
  - apply EXPR. reflexivity.
  - apply EXPR. rewrite !scalar_times_eq. cbn [orel ren]. now rewrite ren_wrap.
  - apply EXPR. rewrite !times_scalar_eq. cbn [orel ren]. now rewrite ren_wrap.
  - apply EXPR. rewrite !plus_eq. rewrite !ren_layout. destruct (dim_eqb _ _); cbn [orel]; auto. cbn [ren]. now rewrite !ren_wrap.
  - apply NEW1, ent_eval; auto.
  - apply AM in Heqo. destruct Heqo as (? & ? & ? & ?). apply LOOP, ent_for_each; auto.
  - apply AM in Heqo. destruct Heqo as (? & ? & ? & ?). apply LOOP, ent_for_each; auto.
  - unfold matmul_typed, base_sizes. cbn [ren_base bm_layout bm_rs bm_cs].
    destruct (_ && _)%bool; cbn [optrel]; auto. destruct Hcare as (C1 & C2 & C3).
    apply DONE, ent_matmul; auto; [| |left]; apply true_reach; eauto;
      first [eapply AB; eassumption | eapply AM; eassumption].
  - unfold dot_typed, base_sizes. cbn [ren_base bm_layout bm_rs bm_cs].
    destruct (_ && _)%bool; cbn [optrel]; auto. destruct Hcare as (C1 & C2).
    apply NEW1, ent_dot; auto; first [apply true_reach; eauto; eapply AB; eassumption | eapply AB; eassumption].
Qed.

Definition row_like (l : layout) (d : N * N) : Prop :=
  true_strides l \/ (block_order l = Some ByRow /\ fst d = 1) \/ (block_order l = Some ByColumn /\ snd d = 1).

Lemma chain_stored_in : forall l p, chain l -> in_range (dim l) p -> stored l p.
Proof. intros l p Hc Hp. now apply chain_stored. Qed.

(** A block has entries of the matrix only. *)
Lemma block_entries : forall m (h : heap) mut b tl d v q, base_valid h b -> row_strides (bm_layout b) ->
  nonempty d -> m = Checked \/ (fst tl + fst d < usize_mod /\ snd tl + snd d < usize_mod) -> row_like (bm_layout b) d ->
  block m mut b tl d = Ok v -> has_cell (@MBase T v) q -> has_cell (@MBase T b) q.
Proof.
  intros m h mut b tl d v q Hv Hr Hn Hm Ht E (p & Hp & ->).
  destruct (block_order (bm_layout b)) as [o|] eqn:Ho.
  2:{ unfold block in E. rewrite Ho in E. discriminate. }
  pose proof (row_strides_chain _ _ Hr Ho) as Hc.
  destruct (inside_dec (dim (bm_layout b)) tl d) as [Hi|Hi].
  - destruct (block_ok m h mut b tl d Hv Hc Hn Hi) as (E' & _ & _). rewrite E in E'. injection E' as ->.
    assert (Hd : in_range d p). { destruct Hp as [Hp _]. now rewrite block_view_dim in Hp. }
    destruct Hd as [H1 H2], Hi as [H3 H4], Hn as [H5 H6].
    assert (Hrg : in_range (dim (bm_layout b)) (shift tl p)) by (split; unfold shift; cbn [fst snd]; lia).
    assert (Hrt : in_range (dim (bm_layout b)) tl) by (split; lia).
    exists (shift tl p). split; [now apply chain_stored_in|]. rewrite block_view_cell. unfold entry_cell. f_equal.
    destruct Ht as [(s & Es & Ht)|[[Ho' Ht]|[Ho' Ht]]].
    + rewrite chain_stride in Es by auto. injection Es as <-.
      rewrite (Ht tl Hrt), (Ht _ Hrg). unfold shift. cbn [fst snd]. lia.
    + unfold told_stride. rewrite Ho'. cbn [fst snd]. destruct p as [p1 p2], tl as [t1 t2]. cbn [fst snd] in *.
      replace p1 with 0 by lia. unfold shift. cbn [fst snd]. rewrite N.add_0_r.
      destruct (bm_layout b) as [D|D|n0|n0|D s|D s|n0 s|n0 s|n0]; cbn [block_order] in Ho'; try discriminate Ho';
        cbn [cell dim true_stride chain fst snd] in *; [lia|]. destruct Hc as [-> _]. lia.
    + unfold told_stride. rewrite Ho'. cbn [fst snd]. destruct p as [p1 p2], tl as [t1 t2]. cbn [fst snd] in *.
      replace p2 with 0 by lia. unfold shift. cbn [fst snd]. rewrite N.add_0_r.
      destruct (bm_layout b) as [D|D|n0|n0|D s|D s|n0 s|n0 s|n0]; cbn [block_order] in Ho'; try discriminate Ho';
        cbn [cell dim true_stride chain fst snd] in *; [lia|]. destruct Hc as [-> _]. lia.
  - exfalso. rewrite (block_outside_panics m mut b tl d o) in E; auto; discriminate.
Qed.

(** The new matrices of a call have entries of the operands or in fresh memory. *)
Definition enews (st : state T) (v : matrix T) : Prop :=
  (forall q, has_cell v q -> (length (st_heap st) <= fst q)%nat) \/
  ((forall q, has_cell v q -> eheld (st_mats st) q) /\
   (is_writable v = true -> exists w, In w (st_mats st) /\ is_writable w = true /\ forall q, has_cell v q -> has_cell w q)).

Lemma step_enews : forall kern m st (o : call T St) st' r, sound m st -> careful m st o ->
  step kern m st o = Ok (st', r) -> exists new, st_mats st' = st_mats st ++ new /\ Forall (enews st) new.
Proof.
  intros kern m st o st' r S (Hsafe & Hm & Hcare) H.
  assert (ONE : forall w v, In w (st_mats st) -> (forall q, has_cell v q -> has_cell w q) ->
     (is_writable v = true -> is_writable w = true) -> enews st v).
  { intros w v Hi Hq Hw. right. split; [intros q Hv; exists w; auto|]. intros Hv. exists w. auto. }
  destruct (step_kinds kern m st o st' r (safe_no_pointers _ Hsafe) H)
    as [r Hr E | b E Ha Hl Ho Hn | v E Eh Hn Hd | x at_ b b0 b1 b2 b3 -> Hb HD Hs Eh E].
  - exists []. rewrite app_nil_r. auto.
  - exists [MBase b]. split; auto. constructor; auto. left. intros q Hq. apply has_cell_lives in Hq. cbn in Hq. lia.
  - exists [v]. split; auto. constructor; auto.
    destruct Hd as
      [mut x first last rs cs l b rg v Ex Er Ev | mut x tl d b v Ex Ev | x y Ex | x y Ex | s p x y Ex | s p x y Ex
      | p p' x y u v l E1 E2]; cbn [careful safe_call] in *; try contradiction.
    + pose proof Ex as Ex'. apply lookup_block_cases in Ex'. destruct Ex' as [X1 X2].
      destruct (lookup_sound _ _ _ _ S X1) as (Hv & Ht). cbn in Hv, Ht.
      assert (Xb : lookup_base st x = Some b) by (unfold lookup_base; now rewrite X1).
      apply (ONE (MBase b)); [eapply nth_error_In; exact X1 | |].
      * intros q. apply (block_entries m (st_heap st) mut b tl d v q); auto; [destruct Hm as [|(M1 & M2 & _)]; auto|exact (Hcare b Xb)].
      * intros Hw. apply X2. apply block_within in Ev. destruct Ev as [_ Ev]. cbn [is_writable] in Hw. congruence.
    + apply (ONE y); auto; [eapply nth_error_In; exact Ex|]. cbn. discriminate.
    + apply (ONE y); auto. eapply nth_error_In; exact Ex.
    + apply (ONE y); [eapply nth_error_In; exact Ex| |discriminate]. intros q Hq. cbn [has_cell] in Hq. now apply wrap_has_cell in Hq.
    + apply (ONE y); [eapply nth_error_In; exact Ex| |discriminate]. intros q Hq. cbn [has_cell] in Hq. now apply wrap_has_cell in Hq.
    + right. split; [|discriminate]. intros q Hq. cbn [has_cell] in Hq. rewrite !wrap_has_cell in Hq.
      destruct Hq as [Hq|Hq]; [exists u|exists v]; (split; [eapply nth_error_In; eassumption|exact Hq]).
  - eexists. split; [exact E|]. destruct HD as (D & HD). apply lookup_mut_writable in Hb. destruct Hb as [Hb Hbm].
    destruct (lookup_sound _ _ _ _ S Hb) as (Hv & Ht). cbn [valid row_strided mat_layout] in Hv, Ht.
    assert (Hi : interior D at_).
    { destruct Hm as [->|Hm].
      - assert (Hdec : interior D at_ \/ ~ interior D at_) by (unfold interior; lia).
        destruct Hdec as [|Hdec]; auto. rewrite (split_outside _ _ _ _ Hv HD Hdec) in Hs. discriminate.
      - cbn in Hm. specialize (Hm b). unfold lookup_base in Hm. rewrite Hb in Hm. specialize (Hm eq_refl).
        now rewrite HD in Hm. }
    destruct (split_ok m _ _ _ _ Hv HD Hi) as [Es _]. rewrite Hs in Es.
    assert (EQ : [MBase (T := T) b0; MBase b1; MBase b2; MBase b3] =
       [MBase (T := T) (pick (quarters b at_) Q0); MBase (pick (quarters b at_) Q1);
        MBase (pick (quarters b at_) Q2); MBase (pick (quarters b at_) Q3)]).
    { unfold quarters in Es. cbv zeta in Es. injection Es as -> -> -> ->. rewrite !pick_quarters. reflexivity. }
    rewrite EQ. apply Forall_forall. intros v Hin. apply In_nth_error in Hin. destruct Hin as (j & Hj). apply quarter_nth in Hj.
    destruct Hj as (k & -> & _). apply (ONE (MBase b)); [eapply nth_error_In; exact Hb| |auto].
    destruct (quarter_window m _ b D at_ k Hv HD Hi) as (_ & (Wd & _ & Wc) & _ & _ & Hins).
    intros q (p & Hp & ->). destruct Hp as [Hp _]. rewrite Wd in Hp. exists (shift (quarter_origin at_ k) p). split; auto.
    rewrite HD in Hins |- *. split; [|discriminate]. destruct Hins, Hp. cbn [dim] in *.
    split; unfold shift; cbn [fst snd dim]; lia.
Qed.

(** What a call writes. *)
Lemma step_etouches : forall kern m st (o : call T St) st' r, sound m st -> careful m st o ->
  step kern m st o = Ok (st', r) ->
  touches (fun q => exists w, In w (st_mats st) /\ is_writable w = true /\ has_cell w q) (st_heap st) (st_heap st').
Proof.
  intros kern m st o st' r S (Hsafe & Hm & Hcare) H.
  destruct (written (Do o)) as [x|] eqn:W.
  - destruct (lookup st x) as [w|] eqn:L.
    2:{ assert (E : exec kern m st o = None).
        { destruct o; cbn in W; try discriminate W; injection W as <-; cbn [exec]; unfold lookup_mut, lookup_base, typed;
            rewrite ?L; auto. destruct (lookup st a) as [[]|], (lookup st b) as [[]|]; auto. }
        unfold step in H. rewrite E in H. injection H as <- _. apply touches_refl. }
    destruct (is_writable w) eqn:Hw.
    + eapply touches_weaken; [|eapply (part_touches kern m st o x w); eauto].
      * intros a i _ Hq. exists w. splits; auto. eapply nth_error_In; exact L.
      * destruct o; auto. destruct Hcare as (_ & _ & C). cbn in W. injection W as <-. intros b0 ->. apply C.
        unfold lookup_base. now rewrite L.
    + assert (E : exec kern m st o = None).
      { assert (LM : lookup_mut st x = None).
        { unfold lookup_mut, lookup_base. rewrite L. destruct w; auto. cbn in Hw. now rewrite Hw. }
        destruct o; cbn in W; try discriminate W; injection W as <-; cbn [exec]; unfold typed, when; rewrite ?LM; auto;
          try (rewrite L, Hw; auto). destruct (lookup_base st a), (lookup_base st b); auto. }
      unfold step in H. rewrite E in H. injection H as <- _. apply touches_refl.
  - eapply touches_weaken; [|eapply (unwritten_touches kern m st o); eauto using sound_placed]. intros a i _ [].
Qed.

(** ** Threads *)

Definition esrel (m : mode) (f : nat -> nat) (st st' : state T) : Prop :=
  sound m st /\ sound m st' /\ st_mats st' = map (ren f) (st_mats st) /\
  rel f (eheld (st_mats st)) (st_heap st) (st_heap st').

Lemma ren_lookup_base : forall f (st st' : state T) x, st_mats st' = map (ren f) (st_mats st) ->
  lookup_base st' x = option_map (ren_base f) (lookup_base st x).
Proof.
  intros f st st' x E. unfold lookup_base, lookup. rewrite E, nth_error_map. destruct (nth_error _ x) as [[]|]; reflexivity.
Qed.

Lemma ren_no_wrap : forall f (st st' : state T) (o : call T St), st_mats st' = map (ren f) (st_mats st) ->
  no_wrap_call st o -> no_wrap_call st' o.
Proof.
  intros f st st' o E. destruct o; cbn [no_wrap_call]; auto.
  - intros H b Hb. rewrite (ren_lookup_base f st) in Hb by auto.
    destruct (lookup_base st x) as [b0|]; [|discriminate]. cbn in Hb. injection Hb as <-. exact (H b0 eq_refl).
  - destruct shape; auto. intros H u v Hu Hv. rewrite (ren_lookup_base f st) in Hu, Hv by auto.
    destruct (lookup_base st a) as [a0|]; [|discriminate]. destruct (lookup_base st b) as [b0|]; [|discriminate].
    cbn in Hu, Hv. injection Hu as <-. injection Hv as <-. exact (H a0 b0 eq_refl eq_refl).
Qed.

Lemma ren_careful : forall f m (st st' : state T) (o : call T St), st_mats st' = map (ren f) (st_mats st) ->
  careful m st o -> careful m st' o.
Proof.
  intros f m st st' o E (H1 & H2 & H3). split; [exact H1|]. split; [destruct H2; eauto using ren_no_wrap|].
  assert (LB : forall (P : layout -> Prop) x, (forall b, lookup_base st x = Some b -> P (bm_layout b)) ->
     forall b, lookup_base st' x = Some b -> P (bm_layout b)).
  { intros P x HP b Hb. rewrite (ren_lookup_base f st) in Hb by auto. destruct (lookup_base st x) as [b0|]; [|discriminate].
    cbn in Hb. injection Hb as <-. exact (HP b0 eq_refl). }
  destruct o; auto.
  - apply (LB (fun l => true_strides l \/ (block_order l = Some ByRow /\ fst d = 1) \/ (block_order l = Some ByColumn /\ snd d = 1))).
    exact H3.
  - destruct H3 as (C1 & C2 & C3). splits; apply (LB true_strides); assumption.
  - destruct H3 as (C1 & C2). splits; apply (LB true_strides); assumption.
Qed.

Lemma sound_extends_ : forall m (h h' : heap) ms, extends h h' -> sound m (mkState h ms) -> sound m (mkState h' ms).
Proof.
  intros m h h' ms He. unfold sound. cbn [st_mats st_heap]. apply Forall_impl. intros x (H1 & H2). split; auto.
  eapply valid_extends; eauto.
Qed.

Lemma careful_step : forall kern m (st : state T) (o : call T St), sound m st -> careful m st o ->
  exists st' r, step kern m st o = Ok (st', r) /\ sound m st'.
Proof. intros kern m st o S (H1 & H2 & _). apply step_safe; auto. now apply safe_within. Qed.

Lemma ent_step : forall f kern m st st' (o : call T St), esrel m f st st' -> careful m st o ->
  exists s1 s2 r g, step kern m st o = Ok (s1, r) /\ step kern m st' o = Ok (s2, r) /\ esrel m g s1 s2.
Proof.
  intros f kern m st st' o (S & S' & E & R) C.
  pose proof (ren_careful f m st st' o E C) as C'.
  destruct (careful_step kern m st o S C) as (s1 & r1 & E1 & S1).
  destruct (careful_step kern m st' o S' C') as (s2 & r2 & E2 & S2).
  assert (Hc : forall x, In x (st_mats st) -> ecov (eheld (st_mats st)) x).
  { intros x Hx q Hq. now exists x. }
  pose proof (ent_exec f (eheld (st_mats st)) kern m st st' o S S' C Hc E R) as X.
  destruct (step_enews _ _ _ _ _ _ S C E1) as (new & En & Hn).
  assert (L : length (st_heap st) = length (st_heap s1) \/ length (st_heap s1) = Datatypes.S (length (st_heap st))).
  { pose proof (step_lengths _ _ _ _ _ _ E1) as L. destruct r1; try destruct (allocates o); lia. }
  assert (E1' := E1). assert (E2' := E2). unfold step in E1', E2'.
  destruct (exec kern m st o) as [[[t1 q1]| |]|] eqn:F1, (exec kern m st' o) as [[[t2 q2]| |]|]; cbn [optrel orel] in X;
    try contradiction; try discriminate E1'; injection E1' as <- <-; injection E2' as <- <-.
  2,3: do 3 eexists; exists f; split; [exact E1|split; [exact E2|]]; unfold esrel; splits; auto.
  destruct X as (Er & f' & Em & X). cbn [fst snd] in *. subst q2. exists t1, t2, q1, f'. splits; auto.
  unfold esrel. splits; auto.
  assert (FR : forall q, eheld (st_mats t1) q -> eheld (st_mats st) q \/
    ((length (st_heap st) <= fst q)%nat /\ (fst q < length (st_heap t1))%nat /\ st_mats t1 <> st_mats st)).
  { intros q (x & Hx & Hxq). rewrite En in Hx. apply in_app_or in Hx. destruct Hx as [Hx|Hx]; [left; now exists x|].
    rewrite Forall_forall in Hn. destruct (Hn x Hx) as [H|[H _]]; [right|left]; auto. splits; auto.
    - pose proof (sound_placed _ _ S1) as P1. unfold all_placed in P1. rewrite Forall_forall in P1. apply (P1 x).
      + rewrite En. apply in_or_app. now right.
      + now apply has_cell_lives.
    - intros Hs. rewrite En in Hs. apply (f_equal (@length _)) in Hs. rewrite app_length in Hs.
      destruct new; [destruct Hx|cbn in Hs; lia]. }
  destruct X as [[X [Hl|Hl]]|X].
  - eapply rel_weaken; [|exact X]. intros q Hq. destruct (FR q Hq) as [H|(H1 & H2 & _)]; auto. lia.
  - eapply rel_weaken; [|exact X]. intros q Hq. destruct (FR q Hq) as [H|(_ & _ & H)]; auto. now elim H.
  - constructor; try apply X.
    + intros a i Hq. destruct (FR _ Hq) as [H|(H1 & H2 & _)]; [apply X; now left|].
      cbn [fst] in *. apply X. right. cbn [fst]. lia.
    + intros a i Hq. destruct (FR _ Hq) as [H|(H1 & H2 & _)]; [exact (rel_dom _ _ _ _ X a i (or_introl H))|]. exact H2.
Qed.

Definition epool_ok (m : mode) (p : pool T) : Prop := entries_apart p /\ forall k, sound m (view p k).

Lemma epstep_ok : forall kern m (p : pool T) k (o : call T St) p' r, epool_ok m p -> careful m (view p k) o ->
  pstep kern m p k o = Ok (p', r) -> epool_ok m p'.
Proof.
  intros kern m p k o p' r [Ha Hs] C H. apply pstep_inv in H. destruct H as (st & E & Eh & Et & Eo).
  destruct (careful_step kern m _ _ (Hs k) C) as (st1 & r1 & E1 & S1). rewrite E in E1. injection E1 as <- <-.
  destruct (step_etouches _ _ _ _ _ _ (Hs k) C E) as [Hx _]. cbn [view st_heap] in Hx.
  destruct (step_enews _ _ _ _ _ _ (Hs k) C E) as (new & En & Hn). cbn [view st_mats] in En.
  split.
  2:{ intros j. unfold view. destruct (Nat.eq_dec j k) as [->|Hj].
      - rewrite Eh, Et. destruct st. exact S1.
      - rewrite Eh, Eo by auto. eapply sound_extends_; eauto. }
  assert (PL : forall j y q, In y (p_tabs p j) -> has_cell y q -> (fst q < length (p_heap p))%nat).
  { intros j y q Hy Hq. pose proof (sound_placed _ _ (Hs j)) as P. unfold all_placed in P. rewrite Forall_forall in P.
    apply (P y Hy). now apply has_cell_lives. }
  assert (NW : forall x, In x (p_tabs p' k) ->
     (forall q, has_cell x q -> (length (p_heap p) <= fst q)%nat) \/
     ((forall q, has_cell x q -> eheld (p_tabs p k) q) /\
      (is_writable x = true -> exists w, In w (p_tabs p k) /\ is_writable w = true /\ forall q, has_cell x q -> has_cell w q))).
  { intros x Hi. rewrite Et, En in Hi. apply in_app_or in Hi. destruct Hi as [Hi|Hi].
    - right. split; [intros q Hq; now exists x|]. intros Hw. exists x. auto.
    - rewrite Forall_forall in Hn. exact (Hn x Hi). }
  intros i j x y q Hd Hi Hj Hw Ox Oy.
  destruct (Nat.eq_dec i k) as [->|Hik]; [|destruct (Nat.eq_dec j k) as [->|Hjk]].
  - rewrite Eo in Hj by auto. destruct (NW x Hi) as [N1|[_ N1]].
    + apply N1 in Ox. pose proof (PL j y q Hj Oy). lia.
    + destruct (N1 Hw) as (w & Hi' & Ww & Ow). exact (Ha k j w y q Hd Hi' Hj Ww (Ow q Ox) Oy).
  - rewrite Eo in Hi by auto. destruct (NW y Hj) as [N1|[N1 _]].
    + apply N1 in Oy. pose proof (PL i x q Hi Ox). lia.
    + destruct (N1 q Oy) as (w & Hi' & Ow). exact (Ha i k x w q Hd Hi Hi' Hw Ox Ow).
  - rewrite Eo in Hi, Hj by auto. exact (Ha i j x y q Hd Hi Hj Hw Ox Oy).
Qed.

Lemma epstep_other : forall kern m (p : pool T) k (o : call T St) p' r j f st, epool_ok m p -> careful m (view p k) o ->
  pstep kern m p k o = Ok (p', r) -> j <> k -> esrel m f st (view p j) -> esrel m f st (view p' j).
Proof.
  intros kern m p k o p' r j f st Hok C H Hj (S1 & S2 & Sm & R). pose proof (epstep_ok _ _ _ _ _ _ _ Hok C H) as [_ Hs'].
  destruct Hok as [Ha Hs]. apply pstep_inv in H. destruct H as (st1 & E & Eh & Et & Eo).
  destruct (step_etouches _ _ _ _ _ _ (Hs k) C E) as [Hx Ht]. apply extends_length in Hx. cbn [view st_heap st_mats] in *.
  unfold esrel. splits; auto; unfold view; cbn [st_mats st_heap]; [now rewrite Eo by auto|]. rewrite Eh. constructor.
  - intros a i Hq. rewrite <- (rel_get _ _ _ _ R a i Hq). pose proof (rel_dom _ _ _ _ R a i Hq) as Hd.
    apply (rel_in _ _ _ _ R) in Hd. cbn [view st_heap] in Hd. destruct Hq as (x & Hi & Ho). apply (ren_has_cell f) in Ho.
    assert (Hi' : In (ren f x) (p_tabs p j)) by (rewrite Sm; now apply in_map).
    apply Ht; auto. intros (w & Hw & Ww & Ow). elim (Ha k j w (ren f x) (f a, i) (not_eq_sym Hj) Hw Hi' Ww Ow Ho).
  - intros a Hl. apply (rel_in _ _ _ _ R) in Hl. cbn [view st_heap] in Hl. lia.
  - apply R.
  - apply R.
Qed.

Lemma eprun : forall kern m (sched : list (nat * call T St)) (p : pool T) solo, epool_ok m p ->
  (forall k, exists f, esrel m f (solo k) (view p k)) ->
  (forall k, careful_history kern m (solo k) (of_thread k sched)) ->
  exists p' tr, prun kern m p sched = Ok (p', tr) /\ epool_ok m p' /\
    forall k, exists st, run kern m (solo k) (of_thread k sched) = Ok (st, of_thread k tr) /\ exists f, esrel m f st (view p' k).
Proof.
  intros kern m sched. induction sched as [|[k o] sched IH]; intros p solo Hp Ha HC; cbn [prun].
  - exists p, []. splits; auto. intros k. destruct (Ha k) as (f & Hf). exists (solo k). split; eauto.
  - destruct (Ha k) as (f & Hf). pose proof (HC k) as Ck. rewrite of_thread_cons, Nat.eqb_refl in Ck. destruct Ck as [Ck Ck'].
    destruct (ent_step f kern m _ _ o Hf Ck) as (s1 & s2 & r & g & E1 & E2 & Hg).
    assert (Cp : careful m (view p k) o) by (destruct Hf as (_ & _ & Hf & _); eapply ren_careful; eauto).
    assert (E : exists p1, pstep kern m p k o = Ok (p1, r)) by (unfold pstep; rewrite E2; cbn [bind]; eauto).
    destruct E as (p1 & E). rewrite E. cbn [bind].
    destruct (IH p1 (settle solo k s1)) as (p2 & tr & E3 & Hp2 & IHk).
    + eapply epstep_ok; eauto.
    + intros j. unfold settle. destruct (Nat.eqb_spec j k) as [->|Hj].
      * exists g. now rewrite (pstep_view _ _ _ _ _ _ _ _ E E2).
      * destruct (Ha j) as (fj & Hfj). exists fj. eapply epstep_other; eauto.
    + intros j. unfold settle. destruct (Nat.eqb_spec j k) as [->|Hj]; [exact (Ck' _ _ E1)|].
      pose proof (HC j) as Cj. rewrite of_thread_cons in Cj. destruct (Nat.eqb_spec k j); [congruence|exact Cj].
    + rewrite E3. cbn [bind]. exists p2, ((k, r) :: tr). splits; auto. intros j. destruct (IHk j) as (st & Rj & F).
      exists st. split; auto. rewrite !of_thread_cons. unfold settle in Rj. rewrite (Nat.eqb_sym k j).
      destruct (Nat.eqb_spec j k) as [->|Hj]; auto. cbn [run]. rewrite E1. cbn [bind]. now rewrite Rj.
Qed.

Lemma esrel_same : forall m f (st st' : state T), esrel m f st st' ->
  Forall2 (fun x y => same_matrix (st_heap st) x (st_heap st') y) (st_mats st) (st_mats st').
Proof.
  intros m f st st' (S & S' & Em & R). rewrite Em.
  assert (A : forall ms, (forall x, In x ms -> In x (st_mats st)) ->
     Forall2 (fun x y => same_matrix (st_heap st) x (st_heap st') y) ms (map (ren f) ms)).
  { induction ms as [|x ms IH]; intros Hi; constructor.
    - unfold same_matrix, mat_dim. rewrite ren_layout, ren_size, ren_writable. splits; auto. intros m0.
      assert (Hx : In x (st_mats st)) by (apply Hi; now left).
      assert (C : ecov (eheld (st_mats st)) x) by (intros q Hq; now exists x).
      assert (V : valid (st_heap st) x) by (unfold sound in S; rewrite Forall_forall in S; apply (S x Hx)).
      assert (V' : valid (st_heap st') (ren f x)).
      { unfold sound in S'. rewrite Forall_forall in S'. apply S'. rewrite Em. now apply in_map. }
      split; intros; [eapply ent_get; eauto | eapply ent_get1d; eauto].
    - apply IH. intros y Hy. apply Hi. now right. }
  now apply A.
Qed.

Lemma esrel_start : forall m (p : pool T) k, epool_ok m p -> esrel m (fun a => a) (view p k) (view p k).
Proof.
  intros m p k [_ Hs]. unfold esrel. splits; auto.
  - symmetry. rewrite <- map_id. apply map_ext. intros x. apply ren_id.
  - constructor; auto. intros a i (x & Hx & Ho). pose proof (sound_placed _ _ (Hs k)) as P. unfold all_placed in P.
    rewrite Forall_forall in P. apply (P x Hx). now apply has_cell_lives in Ho.
Qed.

Lemma handed_ok : forall kern m (acts : list (action T St)) bs rs who, well_behaved kern m binitial acts ->
  brun kern m binitial acts = Some (Ok (bs, rs)) -> lends_apart bs who -> epool_ok m (handed bs who).
Proof.
  intros kern m acts bs rs who W H (Hl & Hd). split.
  - intros j k x y q Hjk Hx Hy Wx Ox Oy. apply in_handed in Hx, Hy.
    destruct Hx as (nx & Ix & Ex), Hy as (ny & Iy & Ey).
    destruct (Hd j k nx ny x Hjk Ix Iy Ex Wx) as [N1 N2].
    destruct (Nat.eq_dec nx ny) as [->|Hne]; [apply N1; constructor|].
    destruct (well_disjoint kern m acts bs rs W H nx ny x y q) as [B|B];
      auto; split; eauto.
  - intros k. destruct (well_state kern m acts bs rs W H) as (_ & S & _). unfold sound in *. cbn [view st_mats st_heap].
    apply Forall_forall. intros x Hx. apply in_handed in Hx. destruct Hx as (n & _ & Hx).
    rewrite Forall_forall in S. apply S. eapply nth_error_In; exact Hx.
Qed.

Lemma c56 : forall kern m (acts : list (action T St)) bs rs who (sched : list (nat * call T St)),
  well_behaved kern m binitial acts -> brun kern m binitial acts = Some (Ok (bs, rs)) -> lends_apart bs who ->
  (forall k, careful_history kern m (view (handed bs who) k) (of_thread k sched)) ->
  exists p' tr, prun kern m (handed bs who) sched = Ok (p', tr) /\ entries_apart p' /\
    forall k, exists st,
      run kern m (view (handed bs who) k) (of_thread k sched) = Ok (st, of_thread k tr) /\
      Forall2 (fun x y => same_matrix (st_heap st) x (p_heap p') y) (st_mats st) (p_tabs p' k).
Proof.
  intros kern m acts bs rs who sched W H L C. pose proof (handed_ok kern m acts bs rs who W H L) as Hp.
  destruct (eprun kern m sched (handed bs who) (view (handed bs who)) Hp) as (p' & tr & E & Hp' & X); auto.
  - intros k. exists (fun a => a). now apply esrel_start.
  - exists p', tr. split; auto. split; [apply Hp'|]. intros k. destruct (X k) as (st & Rk & f & F). exists st. split; auto.
    exact (esrel_same _ _ _ _ F).
Qed.

Lemma same_both : forall (h h1 h2 : heap) (xs ys zs : list (matrix T)),
  Forall2 (fun x y => same_matrix h x h1 y) xs ys -> Forall2 (fun x y => same_matrix h x h2 y) xs zs ->
  Forall2 (fun x y => same_matrix h1 x h2 y) ys zs.
Proof.
  intros h h1 h2 xs ys zs F1. revert zs.
  induction F1 as [|x y xs ys (A1 & A2 & A3 & A4) F1 IH]; intros zs F2; inversion F2; subst; constructor; auto.
  match goal with H : same_matrix _ _ _ _ |- _ => destruct H as (B1 & B2 & B3 & B4) end.
  unfold same_matrix. splits; try congruence. intros m0. destruct (A4 m0) as [A5 A6], (B4 m0) as [B5 B6].
  split; intros; [rewrite B5, A5 | rewrite B6, A6]; auto.
Qed.

Lemma c56_order : forall kern m (acts : list (action T St)) bs rs who (s1 s2 : list (nat * call T St)),
  well_behaved kern m binitial acts -> brun kern m binitial acts = Some (Ok (bs, rs)) -> lends_apart bs who ->
  (forall k, careful_history kern m (view (handed bs who) k) (of_thread k s1)) ->
  (forall k, of_thread k s1 = of_thread k s2) ->
  exists p1 tr1 p2 tr2,
    prun kern m (handed bs who) s1 = Ok (p1, tr1) /\ prun kern m (handed bs who) s2 = Ok (p2, tr2) /\
    forall k, of_thread k tr1 = of_thread k tr2 /\
      Forall2 (fun x y => same_matrix (p_heap p1) x (p_heap p2) y) (p_tabs p1 k) (p_tabs p2 k).
Proof.
  intros kern m acts bs rs who s1 s2 W H L C Es.
  assert (C2 : forall k, careful_history kern m (view (handed bs who) k) (of_thread k s2)) by (intros k; rewrite <- Es; auto).
  destruct (c56 kern m acts bs rs who s1 W H L C) as (p1 & tr1 & E1 & _ & X1).
  destruct (c56 kern m acts bs rs who s2 W H L C2) as (p2 & tr2 & E2 & _ & X2).
  exists p1, tr1, p2, tr2. splits; auto. intros k.
  destruct (X1 k) as (st1 & R1 & F1), (X2 k) as (st2 & R2 & F2). rewrite Es in R1. rewrite R1 in R2. injection R2 as <- ->.
  split; auto. eapply same_both; eauto.
Qed.

(** A careful call changes no entry of another thread. *)
Lemma c56_writes : forall kern m (acts : list (action T St)) bs rs who (sched : list (nat * call T St)) p' tr,
  well_behaved kern m binitial acts -> brun kern m binitial acts = Some (Ok (bs, rs)) -> lends_apart bs who ->
  (forall k, careful_history kern m (view (handed bs who) k) (of_thread k sched)) ->
  prun kern m (handed bs who) sched = Ok (p', tr) ->
  forall j k (o : call T St) p'' r, j <> k -> careful m (view p' k) o -> pstep kern m p' k o = Ok (p'', r) ->
  forall y a i, In y (p_tabs p' j) -> has_cell y (a, i) -> hget (p_heap p'') a i = hget (p_heap p') a i.
Proof.
  intros kern m acts bs rs who sched p' tr W H L C E j k o p'' r Hj Co Hs y a i Hy Hq.
  pose proof (handed_ok kern m acts bs rs who W H L) as Hp.
  destruct (eprun kern m sched (handed bs who) (view (handed bs who)) Hp) as (p1 & tr1 & E1 & [Ha HS] & _); auto.
  { intros i0. exists (fun b => b). now apply esrel_start. }
  rewrite E in E1. injection E1 as <- <-.
  apply pstep_inv in Hs. destruct Hs as (st & Es & Eh & _). destruct (step_etouches _ _ _ _ _ _ (HS k) Co Es) as [_ Ht].
  rewrite Eh. cbn [view st_heap st_mats] in Ht. apply Ht.
  - pose proof (sound_placed _ _ (HS j)) as P. unfold all_placed in P. rewrite Forall_forall in P.
    apply has_cell_lives in Hq. exact (P y Hy _ Hq).
  - intros (w & Hw & Ww & Ow). elim (Ha k j w y (a, i) (not_eq_sym Hj) Hw Hy Ww Ow Hq).
Qed.

(** With overflow checks, calls other than views and products need no condition on the state. *)
Lemma plain_careful : forall kern (os : list (call T St)) (st : state T),
  Forall (fun o => safe_call o /\
    match o with
    | CSliceRead _ _ _ _ | CSliceWrite _ _ _ _ _ | CFromSlice _ _ _ _ _ _ _ | CBlock _ _ _ _ | CMatmul _ _ _ _ _ | CDot _ _ _ => False
    | _ => True
    end) os -> careful_history kern Checked st os.
Proof.
  intros kern os. induction os as [|o os IH]; intros st H; cbn [careful_history]; auto. inversion H as [|? ? [H1 H2] H3]; subst.
  split; [|auto]. split; auto. split; auto. destruct o; auto; contradiction.
Qed.
End Entries.
