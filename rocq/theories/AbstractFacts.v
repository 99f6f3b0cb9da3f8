(** * AbstractFacts: the relation between the memory and the abstract machine. *)

From Coq Require Import Lia ZArith ZifyBool ZifyNat ZifyN.
From Verif Require Import Machine Layouts Memory Matrix MatMul MachineFacts Spec LayoutFacts LayoutProofs
  MemoryFacts MatrixSpec AccessFacts AccessProofs ConstructorProofs BlockProofs ExprSpec ExprProofs
  ProductSpec ProductProofs Program HistorySpec ModeProofs HistoryProofs HistorySafety Abstract.
Local Open Scope N_scope.

Section AbstractFacts.
Context {T : Type} {SC : HScalar T} {St : Type}.
Notation heap := (@heap T).
Notation amatrix := (@amatrix T).
Notation handle := (@handle T).
Notation astate := (@astate T).

(** ** The relation *)

(** The layout a matrix of the abstract machine is stored in. *)
Definition kind_layout (k : base_kind) (d : N * N) : layout :=
  match k with
  | KRowMajor => RowMajor d
  | KColumnMajor => ColumnMajor d
  | KRowVector => RowVector (snd d)
  | KColumnVector => ColumnVector (fst d)
  | KUpperTriangular => UpperTriangular (fst d)
  end.

Definition root_ok (a : amatrix) : Prop :=
  dim (kind_layout (a_kind a) (a_dim a)) = a_dim a.

Definition root_cell (a : amatrix) (p : N * N) : N := cell (kind_layout (a_kind a) (a_dim a)) p.

(** The allocation number [n] holds the matrix number [n]. *)
Definition heap_rel (h : heap) (ms : list amatrix) : Prop :=
  length h = length ms /\
  forall n a, nth_error ms n = Some a -> root_ok a /\
    forall p, held (a_kind a) (a_dim a) p -> hget h n (root_cell a p) = Some (a_val a p).

Record window_rel (h : heap) (ms : list amatrix) (b : base_matrix) (w : awindow) : Prop := {
  wr_valid : base_valid h b;
  wr_dim : dim (bm_layout b) = w_dim w;
  wr_kind : index_kind (bm_layout b) = w_kind w;
  wr_sizes : (bm_rs b, bm_cs b) = w_sizes w;
  wr_mut : container_is_mut (bm_data b) = w_mut w;
  wr_view : has_strides (bm_layout b) = w_view w;
  wr_chain : w_view w = true -> chain (bm_layout b) /\ nonempty (w_dim w);
  wr_fixed : (fst (w_sizes w) = Fixed1 -> fst (w_dim w) = 1) /\ (snd (w_sizes w) = Fixed1 -> snd (w_dim w) = 1);
  wr_dynamic : w_sizes w = (Dynamic, Dynamic) -> w_kind w <> KColumnVector;
  wr_room : w_view w = false -> c_region (bm_data b) = mkRegion (w_matrix w) 0 (w_room w);
  wr_root : exists a, nth_error ms (w_matrix w) = Some a /\ a_kind a = w_kind w /\
    inside (a_dim a) (w_origin w) (w_dim w) /\ (w_view w = false -> w_dim w = a_dim a /\ w_origin w = (0, 0)) /\
    forall p, held (w_kind w) (w_dim w) p ->
      entry_cell b p = (w_matrix w, root_cell a (shift (w_origin w) p))
}.

Fixpoint matrix_rel (h : heap) (ms : list amatrix) (x : matrix T) (y : handle) : Prop :=
  match x, y with
  | MBase b, HWindow w => window_rel h ms b w
  | MRef x, HRef y => matrix_rel h ms x y
  | MRefMut x, HRefMut y => matrix_rel h ms x y
  | MScalarMult x s, HScaled t y => s = t /\ matrix_rel h ms x y
  | MAddition x1 x2 l, HSum y1 y2 =>
      matrix_rel h ms x1 y1 /\ matrix_rel h ms x2 y2 /\
      dim (mat_layout x1) = dim (mat_layout x2) /\
      index_kind (mat_layout x1) = index_kind (mat_layout x2) /\ l = index_layout (mat_layout x1)
  | _, _ => False
  end.

Definition state_rel (st : state T) (ast : astate) : Prop :=
  heap_rel (st_heap st) (as_matrices ast) /\
  Forall2 (matrix_rel (st_heap st) (as_matrices ast)) (st_mats st) (as_handles ast).

(** ** Consequences of the relation *)

Lemma matrix_rel_valid : forall h ms x y, matrix_rel h ms x y -> valid h x.
Proof.
  induction x as [b|x IH|x IH|x IH s|x1 IH1 x2 IH2 l]; destruct y; cbn; intros H; try contradiction; eauto.
  - apply H.
  - destruct H. eauto.
  - destruct H as (H1 & H2 & H3 & H4 & H5). eauto 8.
Qed.

Lemma matrix_rel_dim : forall h ms x y, matrix_rel h ms x y -> dim (mat_layout x) = hdim y.
Proof.
  induction x as [b|x IH|x IH|x IH s|x1 IH1 x2 IH2 l]; destruct y; cbn; intros H; try contradiction; eauto.
  - apply H.
  - destruct H. eauto.
  - destruct H as (H1 & H2 & H3 & H4 & H5). subst l. rewrite index_layout_dim. eauto.
Qed.

Lemma matrix_rel_kind : forall h ms x y, matrix_rel h ms x y -> index_kind (mat_layout x) = hkind y.
Proof.
  induction x as [b|x IH|x IH|x IH s|x1 IH1 x2 IH2 l]; destruct y; cbn; intros H; try contradiction; eauto.
  - apply H.
  - destruct H. eauto.
  - destruct H as (H1 & H2 & H3 & H4 & H5). subst l. rewrite index_layout_kind. eauto.
Qed.

Lemma matrix_rel_sizes : forall h ms x y, matrix_rel h ms x y -> mat_size x = hsizes y.
Proof.
  induction x as [b|x IH|x IH|x IH s|x1 IH1 x2 IH2 l]; destruct y; cbn; intros H; try contradiction; eauto.
  - apply H.
  - destruct H. eauto.
  - destruct H as (H1 & H2 & H3 & H4 & H5). eauto.
Qed.

Lemma matrix_rel_fixed : forall h ms x y, matrix_rel h ms x y ->
  (fst (hsizes y) = Fixed1 -> fst (hdim y) = 1) /\ (snd (hsizes y) = Fixed1 -> snd (hdim y) = 1).
Proof.
  induction x as [b|x IH|x IH|x IH s|x1 IH1 x2 IH2 l]; destruct y; cbn; intros H; try contradiction; eauto.
  - apply H.
  - destruct H. eauto.
  - destruct H as (H1 & H2 & H3 & H4 & H5). eauto.
Qed.

Lemma matrix_rel_dynamic : forall h ms x y, matrix_rel h ms x y -> hsizes y = (Dynamic, Dynamic) ->
  hkind y <> KColumnVector.
Proof.
  induction x as [b|x IH|x IH|x IH s|x1 IH1 x2 IH2 l]; destruct y; cbn; intros H; try contradiction; eauto.
  - apply H.
  - destruct H. eauto.
  - destruct H as (H1 & H2 & H3 & H4 & H5). eauto.
Qed.

Lemma stored_held : forall l p, stored l p <-> held (index_kind l) (dim l) p.
Proof.
  intros l p. unfold stored, held. rewrite upper_triangular_kind. destruct (index_kind l); intuition congruence.
Qed.

Lemma view_not_triangular : forall h ms b w, window_rel h ms b w -> w_view w = true ->
  w_kind w <> KUpperTriangular.
Proof.
  intros h ms b w H Hv. rewrite <- (wr_kind _ _ _ _ H). destruct (wr_chain _ _ _ _ H Hv) as [Hc _].
  destruct (bm_layout b); cbn in *; contradiction || discriminate.
Qed.

(** The entries of a window are entries of its matrix. *)
Lemma window_held : forall h ms b w p, window_rel h ms b w -> held (w_kind w) (w_dim w) p ->
  forall a, nth_error ms (w_matrix w) = Some a -> held (a_kind a) (a_dim a) (shift (w_origin w) p).
Proof.
  intros h ms b w p H [Hp Ht] a Ha. destruct (wr_root _ _ _ _ H) as (a' & Ha' & Hk & Hi & Hwh & _).
  assert (a' = a) by congruence. subst a'. split; [eapply window_in_range; eauto|].
  rewrite Hk. intros Ek. destruct (w_view w) eqn:Ev; [now apply (view_not_triangular _ _ _ _ H) in Ev|].
  destruct (Hwh eq_refl) as [_ ->]. unfold shift. cbn [fst snd]. rewrite !N.add_0_l. auto.
Qed.

Lemma matrix_stored : forall h ms x y p, matrix_rel h ms x y ->
  (stored (mat_layout x) p <-> held (hkind y) (hdim y) p).
Proof.
  intros h ms x y p H. rewrite stored_held, (matrix_rel_dim _ _ _ _ H), (matrix_rel_kind _ _ _ _ H). tauto.
Qed.

Lemma kind_count : forall l, entry_count l = count (index_kind l) (dim l).
Proof. intros []; reflexivity. Qed.

Lemma matrix_count : forall h ms x y, matrix_rel h ms x y ->
  entry_count (mat_layout x) = count (hkind y) (hdim y).
Proof.
  intros h ms x y H. rewrite kind_count, (matrix_rel_dim _ _ _ _ H), (matrix_rel_kind _ _ _ _ H). reflexivity.
Qed.

Lemma kind_position : forall l i, pos l i = position (index_kind l) (dim l) i.
Proof.
  intros [] i; reflexivity.
Qed.

Lemma matrix_position : forall h ms x y i, matrix_rel h ms x y ->
  pos (mat_layout x) i = position (hkind y) (hdim y) i.
Proof.
  intros h ms x y i H. rewrite kind_position, (matrix_rel_dim _ _ _ _ H), (matrix_rel_kind _ _ _ _ H). reflexivity.
Qed.

(** The position a number stands for has an entry. *)
Lemma matrix_position_held : forall h ms x y i, matrix_rel h ms x y ->
  i < count (hkind y) (hdim y) -> held (hkind y) (hdim y) (position (hkind y) (hdim y) i).
Proof.
  intros h ms x y i H Hi. rewrite <- (matrix_count _ _ _ _ H) in Hi. rewrite <- (matrix_position _ _ _ _ _ H).
  apply (matrix_stored _ _ _ _ _ H). now apply pos_spec.
Qed.

Lemma window_entry_value : forall h ms b w p, heap_rel h ms -> window_rel h ms b w ->
  held (w_kind w) (w_dim w) p -> base_entry h b p = Some (wvalue ms w p).
Proof.
  intros h ms b w p [_ Hh] H Hp. destruct (wr_root _ _ _ _ H) as (a & Ha & Hk & Hi & Hwh & Hc).
  unfold base_entry. rewrite (Hc p Hp). cbn [fst snd]. unfold wvalue. rewrite Ha.
  apply (Hh _ _ Ha). eapply window_held; eauto.
Qed.

Lemma matrix_entry_value : forall h ms x y p, heap_rel h ms -> matrix_rel h ms x y ->
  held (hkind y) (hdim y) p -> entry h x p = Some (hvalue ms y p).
Proof.
  unfold entry.
  induction x as [b|x IH|x IH|x IH s|x1 IH1 x2 IH2 l]; destruct y; cbn; intros p Hh H Hp; try contradiction; eauto.
  - eapply window_entry_value; eauto.
  - destruct H as [-> H]. rewrite (IH _ _ Hh H Hp). reflexivity.
  - destruct H as (H1 & H2 & H3 & H4 & H5).
    rewrite (IH1 _ _ Hh H1 Hp), (IH2 _ p Hh H2); [reflexivity|].
    rewrite <- (matrix_rel_dim _ _ _ _ H2), <- H3, (matrix_rel_dim _ _ _ _ H1).
    rewrite <- (matrix_rel_kind _ _ _ _ H2), <- H4, (matrix_rel_kind _ _ _ _ H1). exact Hp.
Qed.

Lemma matrix_writable : forall h ms x y, matrix_rel h ms x y ->
  match hwindow y with
  | Some w => is_writable x = true /\ exists b, writes_to x = Some b /\ window_rel h ms b w /\ w_mut w = true /\
                hdim y = w_dim w /\ hkind y = w_kind w
  | None => is_writable x = false
  end.
Proof.
  induction x as [b|x IH|x IH|x IH s|x1 IH1 x2 IH2 l]; destruct y; cbn; intros H; try contradiction; auto.
  - rewrite (wr_mut _ _ _ _ H). destruct (w_mut w) eqn:E; eauto 8.
  - apply IH. exact H.
Qed.

(** ** Changing the state *)

Definition same_roots (ms ms' : list amatrix) : Prop :=
  forall n a, nth_error ms n = Some a ->
    exists a', nth_error ms' n = Some a' /\ a_dim a' = a_dim a /\ a_kind a' = a_kind a.

Lemma same_roots_app : forall ms k, same_roots ms (ms ++ k).
Proof.
  intros ms k n a H. exists a. split; [|auto]. rewrite nth_error_app1; [exact H|].
  apply nth_error_Some. congruence.
Qed.

Lemma same_roots_refl : forall ms, same_roots ms ms.
Proof. intros ms n a H. eauto. Qed.

Lemma same_roots_trans : forall a b c, same_roots a b -> same_roots b c -> same_roots a c.
Proof.
  intros a b c H1 H2 n x H. destruct (H1 _ _ H) as (y & Hy & Ed & Ek).
  destruct (H2 _ _ Hy) as (z & Hz & Ed' & Ek'). exists z. repeat split; congruence.
Qed.

Lemma change_nth : forall (ms : list amatrix) n f k,
  nth_error (change ms n f) k =
  if Nat.eqb k n then option_map (fun a => mkMatrix (a_dim a) (a_kind a) f) (nth_error ms n)
  else nth_error ms k.
Proof.
  induction ms as [|a ms IH]; intros n f k; cbn [change].
  - destruct n, k; cbn; try reflexivity. destruct (Nat.eqb k n); reflexivity.
  - destruct n, k; cbn; try reflexivity. apply IH.
Qed.

Lemma change_length : forall (ms : list amatrix) n f, length (change ms n f) = length ms.
Proof. induction ms; intros [|n] f; cbn; auto. Qed.

Lemma same_roots_change : forall ms n f, same_roots ms (change ms n f).
Proof.
  intros ms n f k a H. rewrite change_nth. destruct (Nat.eqb k n) eqn:E.
  - apply Nat.eqb_eq in E. subst k. rewrite H. cbn. eexists. split; [reflexivity|]. auto.
  - eauto.
Qed.

Lemma same_roots_put : forall ms w p v, same_roots ms (put ms w p v).
Proof.
  intros ms w p v. unfold put. destruct nth_error; [apply same_roots_change|apply same_roots_refl].
Qed.

Lemma window_rel_mono : forall h ms h' ms' b w, extends h h' -> same_roots ms ms' ->
  window_rel h ms b w -> window_rel h' ms' b w.
Proof.
  intros h ms h' ms' b w He Hr H. destruct H as [H1 H2 H3 H4 H5 H6 H7 H8 H9 H11 H10].
  constructor; auto; [eapply base_valid_extends; eauto|].
  destruct H10 as (a & Ha & Hk & Hi & Hwh & Hc). destruct (Hr _ _ Ha) as (a' & Ha' & Ed & Ek).
  exists a'. split; [exact Ha'|]. split; [congruence|]. rewrite Ed. split; [exact Hi|]. split; [exact Hwh|].
  unfold root_cell. rewrite Ed, Ek. exact Hc.
Qed.

Lemma matrix_rel_mono : forall h ms h' ms' x y, extends h h' -> same_roots ms ms' ->
  matrix_rel h ms x y -> matrix_rel h' ms' x y.
Proof.
  intros h ms h' ms' x y He Hr. revert y.
  induction x as [b|x IH|x IH|x IH s|x1 IH1 x2 IH2 l]; destruct y; cbn; intros H; try contradiction; eauto.
  - eapply window_rel_mono; eauto.
  - destruct H. eauto.
  - destruct H as (H1 & H2 & H3 & H4 & H5). eauto 8.
Qed.

Lemma mats_rel_mono : forall h ms h' ms' xs ys, extends h h' -> same_roots ms ms' ->
  Forall2 (matrix_rel h ms) xs ys -> Forall2 (matrix_rel h' ms') xs ys.
Proof.
  intros h ms h' ms' xs ys He Hr H. induction H; constructor; auto. eapply matrix_rel_mono; eauto.
Qed.

Lemma root_stored : forall a p, root_ok a ->
  (stored (kind_layout (a_kind a) (a_dim a)) p <-> held (a_kind a) (a_dim a) p).
Proof.
  intros a p Hd. rewrite stored_held, Hd. destruct (a_kind a); cbn [kind_layout index_kind]; tauto.
Qed.

Lemma root_cell_inj : forall a p q, root_ok a -> held (a_kind a) (a_dim a) p -> held (a_kind a) (a_dim a) q ->
  root_cell a p = root_cell a q -> p = q.
Proof.
  intros a p q Hd Hp Hq E.
  assert (Hdense : has_strides (kind_layout (a_kind a) (a_dim a)) = false) by (destruct (a_kind a); reflexivity).
  apply (distinct_dense _ Hdense); [| |exact E]; now apply root_stored.
Qed.

Lemma window_distinct_cells : forall h ms b w p q, heap_rel h ms -> window_rel h ms b w ->
  held (w_kind w) (w_dim w) p -> held (w_kind w) (w_dim w) q -> entry_cell b p = entry_cell b q -> p = q.
Proof.
  intros h ms b w p q [_ Hh] H Hp Hq E. destruct (wr_root _ _ _ _ H) as (a & Ha & Hk & Hi & Hwh & Hc).
  rewrite (Hc p Hp), (Hc q Hq) in E. assert (E' : root_cell a (shift (w_origin w) p) = root_cell a (shift (w_origin w) q)) by congruence.
  apply root_cell_inj in E'.
  - unfold shift in E'. destruct p, q. cbn in E'. injection E' as E1 E2. f_equal; lia.
  - apply (Hh _ _ Ha).
  - eapply window_held; eauto.
  - eapply window_held; eauto.
Qed.

Lemma pos_eqb_eq : forall p q : N * N, pos_eqb p q = true <-> p = q.
Proof.
  intros [a b] [c d]. unfold pos_eqb. cbn. rewrite Bool.andb_true_iff, !N.eqb_eq.
  split; [intros [-> ->]; reflexivity|intros E; injection E; auto].
Qed.

Lemma in_rangeb_iff : forall d p, in_rangeb d p = true <-> in_range d p.
Proof.
  intros d p. unfold in_rangeb, in_range. rewrite Bool.andb_true_iff, !N.ltb_lt. tauto.
Qed.

Lemma heldb_iff : forall k d p, heldb k d p = true <-> held k d p.
Proof.
  intros k d p. unfold heldb, held. rewrite Bool.andb_true_iff, in_rangeb_iff.
  destruct k; rewrite ?N.leb_le; intuition congruence.
Qed.

(** If the cells of a window, and no others, take the values [f], the matrices
    change as [put_all] or [put] says. *)
Lemma heap_rel_write : forall (h : heap) ms (h' : heap) b w (P : N * N -> Prop) (f : N * N -> T), heap_rel h ms -> window_rel h ms b w ->
  (forall p, P p -> held (w_kind w) (w_dim w) p) ->
  length h' = length h ->
  (forall n i, ~ (exists p, P p /\ (n, i) = entry_cell b p) -> hget h' n i = hget h n i) ->
  (forall p, P p -> base_entry h' b p = Some (f p)) ->
  forall a, nth_error ms (w_matrix w) = Some a ->
  forall g, (forall p, P p -> g (shift (w_origin w) p) = f p) ->
    (forall q, held (a_kind a) (a_dim a) q -> ~ (exists p, P p /\ q = shift (w_origin w) p) -> g q = a_val a q) ->
    (forall q, (exists p, P p /\ q = shift (w_origin w) p) \/ ~ (exists p, P p /\ q = shift (w_origin w) p)) ->
    heap_rel h' (change ms (w_matrix w) g).
Proof.
  intros h ms h' b w P f [Hlen Hh] H HP Hl Hsame Hnew a Ha g Hg1 Hg2 Hdec.
  destruct (wr_root _ _ _ _ H) as (a0 & Ha0 & Hk & Hi & Hwh & Hc).
  assert (a0 = a) by congruence. subst a0. clear Ha0.
  split; [rewrite change_length; congruence|].
  intros n x Hx. rewrite change_nth in Hx. destruct (Nat.eqb n (w_matrix w)) eqn:En.
  - apply Nat.eqb_eq in En. subst n. rewrite Ha in Hx. cbn in Hx. apply some_inj in Hx. subst x.
    destruct (Hh _ _ Ha) as [Hok Hval]. split; [exact Hok|].
    cbn [a_dim a_kind a_val]. intros q Hq. unfold root_cell at 1. cbn [a_kind a_dim].
    fold (root_cell a q).
    destruct (Hdec q) as [(p & Hp & ->)|Hn].
    + rewrite (Hg1 p Hp). specialize (Hnew p Hp). unfold base_entry in Hnew.
      rewrite (Hc p (HP p Hp)) in Hnew. exact Hnew.
    + rewrite (Hg2 q Hq Hn), Hsame; [apply Hval; exact Hq|].
      intros (p & Hp & E). rewrite (Hc p (HP p Hp)) in E. apply Hn. exists p. split; [exact Hp|].
      assert (E' : root_cell a q = root_cell a (shift (w_origin w) p)) by congruence.
      apply root_cell_inj in E'; auto. eapply window_held; eauto.
  - destruct (Hh _ _ Hx) as [Hok Hval]. split; [exact Hok|]. intros q Hq.
    rewrite Hsame; [apply Hval; exact Hq|].
    intros (p & Hp & E). rewrite (Hc p (HP p Hp)) in E. apply Nat.eqb_neq in En. congruence.
Qed.

Lemma shift_inj : forall o p q, shift o p = shift o q -> p = q.
Proof. intros o [a b] [c d] E. unfold shift in E. cbn in E. injection E as E1 E2. f_equal; lia. Qed.

Lemma heap_rel_put : forall h ms b w p v, heap_rel h ms -> window_rel h ms b w ->
  held (w_kind w) (w_dim w) p ->
  heap_rel (hset h (fst (entry_cell b p)) (snd (entry_cell b p)) v) (put ms w p v).
Proof.
  intros h ms b w p v Hh H Hp. destruct (wr_root _ _ _ _ H) as (a & Ha & Hk & Hi & Hwh & Hc).
  unfold put. rewrite Ha.
  pose proof (hset_changes_only h (fst (entry_cell b p)) (snd (entry_cell b p)) v) as (Hl & He & Hs).
  assert (Hst : stored (bm_layout b) p).
  { apply stored_held. rewrite (wr_kind _ _ _ _ H), (wr_dim _ _ _ _ H). exact Hp. }
  apply heap_rel_write with (h := h) (b := b) (P := fun q => q = p) (f := fun _ => v) (a := a); auto.
  - intros q ->. exact Hp.
  - intros n i Hn. apply Hs. intros E. apply Hn. exists p. split; [reflexivity|].
    rewrite E. destruct (entry_cell b p); reflexivity.
  - intros q ->. apply distinct_entry_same; [apply H|exact Hst].
  - intros q ->. replace (pos_eqb _ _) with true; [reflexivity|]. symmetry. apply pos_eqb_eq. reflexivity.
  - intros q Hq Hn. destruct (pos_eqb q _) eqn:E; [|reflexivity].
    apply pos_eqb_eq in E. exfalso. apply Hn. eauto.
  - intros q. destruct (pos_eqb q (shift (w_origin w) p)) eqn:E.
    + left. exists p. split; [reflexivity|]. apply pos_eqb_eq. exact E.
    + right. intros (x & -> & E'). apply pos_eqb_eq in E'. congruence.
Qed.

Lemma hset_extends : forall (h : heap) a i v, extends h (hset h a i v).
Proof. intros h a i v. apply (hset_changes_only h a i v). Qed.

(** A new allocation. *)
Lemma heap_rel_new : forall h ms h' d k f, heap_rel h ms -> only_allocates h h' ->
  length h' = S (length h) -> dim (kind_layout k d) = d ->
  (forall p, held k d p -> hget h' (length h) (cell (kind_layout k d) p) = Some (f p)) ->
  heap_rel h' (ms ++ [mkMatrix d k f]).
Proof.
  intros h ms h' d k f [Hl Hh] Ho Hl' Hd Hf. split; [rewrite app_length; cbn; lia|].
  intros n a Ha. destruct (Nat.lt_ge_cases n (length ms)) as [Hn|Hn].
  - rewrite nth_error_app1 in Ha by exact Hn. destruct (Hh _ _ Ha) as [H1 H2]. split; [exact H1|].
    intros p Hp. rewrite (only_allocates_hget _ _ Ho) by lia. auto.
  - rewrite nth_error_app2 in Ha by exact Hn. destruct (n - length ms)%nat as [|k'] eqn:E.
    + cbn in Ha. apply some_inj in Ha. subst a. split; [assumption|].
      cbn [a_dim a_kind a_val]. intros p Hp. unfold root_cell. cbn [a_kind a_dim].
      replace n with (length h) by lia. auto.
    + cbn in Ha. destruct k'; discriminate.
Qed.

Lemma window_rel_new : forall h ms b d k s room f,
  base_valid h b -> bm_layout b = kind_layout k d -> dim (kind_layout k d) = d ->
  (bm_rs b, bm_cs b) = s -> container_is_mut (bm_data b) = true ->
  c_region (bm_data b) = mkRegion (length ms) 0 room ->
  (fst s = Fixed1 -> fst d = 1) /\ (snd s = Fixed1 -> snd d = 1) ->
  (s = (Dynamic, Dynamic) -> k <> KColumnVector) ->
  window_rel h (ms ++ [mkMatrix d k f]) b (mkWindow (length ms) (0, 0) d k s false true room).
Proof.
  intros h ms b d k s room f Hv Hl Hd Hs Hm Ha Hf Hdyn.
  constructor; cbn [w_dim w_kind w_sizes w_view w_mut w_matrix w_origin w_room]; auto.
  - rewrite Hl. exact Hd.
  - rewrite Hl. destruct k; reflexivity.
  - rewrite Hl. destruct k; reflexivity.
  - discriminate.
  - exists (mkMatrix d k f). split; [rewrite nth_error_app2, Nat.sub_diag by lia; reflexivity|].
    cbn [a_kind a_dim]. split; [reflexivity|]. split; [unfold inside; cbn; lia|]. split; [auto|].
    intros p Hp. unfold entry_cell, cell_of_region, root_cell. cbn [a_kind a_dim].
    rewrite Ha, Hl. f_equal.
Qed.


(** ** Single calls *)

Variable kern : kernel T.

Definition simulated (st : state T) (ast : astate) (o : call T St) : Prop :=
  exists st', step kern Checked st o = Ok (st', snd (astep kern ast o)) /\
              state_rel st' (fst (astep kern ast o)).

Lemma lookup_rel : forall st ast x, state_rel st ast ->
  match ahandle ast x with
  | Some y => exists u, lookup st x = Some u /\ matrix_rel (st_heap st) (as_matrices ast) u y
  | None => lookup st x = None
  end.
Proof.
  intros st ast x [_ H]. unfold ahandle, lookup. revert x.
  induction H as [|u y us ys H1 H2 IH]; intros [|x]; cbn; [reflexivity|reflexivity|eauto|apply IH].
Qed.

Lemma lookup_base_rel : forall st ast x, state_rel st ast ->
  match awindow_of ast x with
  | Some w => exists b, lookup_base st x = Some b /\ window_rel (st_heap st) (as_matrices ast) b w
  | None => lookup_base st x = None
  end.
Proof.
  intros st ast x H. pose proof (lookup_rel st ast x H) as Hx. unfold awindow_of, lookup_base.
  destruct (ahandle ast x) as [y|]; [|rewrite Hx; reflexivity].
  destruct Hx as (u & Eu & Hu). rewrite Eu. destruct u, y; cbn in Hu; try contradiction; eauto.
Qed.

Lemma lookup_mut_rel : forall st ast x, state_rel st ast ->
  match awindow_mut ast x with
  | Some w => exists b, lookup_mut st x = Some b /\ window_rel (st_heap st) (as_matrices ast) b w /\
                w_mut w = true /\ awindow_of ast x = Some w
  | None => lookup_mut st x = None
  end.
Proof.
  intros st ast x H. pose proof (lookup_base_rel st ast x H) as Hx. unfold awindow_mut, lookup_mut.
  destruct (awindow_of ast x) as [w|]; [|rewrite Hx; reflexivity].
  destruct Hx as (b & Eb & Hb). rewrite Eb, (wr_mut _ _ _ _ Hb).
  destruct (w_mut w) eqn:E; eauto.
Qed.

(** Unchanged heap, new entries of the table. *)
Lemma state_rel_handles : forall st ast xs ys, state_rel st ast ->
  Forall2 (matrix_rel (st_heap st) (as_matrices ast)) xs ys ->
  state_rel (mkState (st_heap st) (st_mats st ++ xs)) (mkAState (as_matrices ast) (as_handles ast ++ ys)).
Proof.
  intros st ast xs ys [H1 H2] H. split; [exact H1|]. cbn. apply Forall2_app; assumption.
Qed.

(** Changed heap, old table. *)
Lemma state_rel_heap : forall st ast h' ms', state_rel st ast -> extends (st_heap st) h' ->
  same_roots (as_matrices ast) ms' -> heap_rel h' ms' ->
  state_rel (mkState h' (st_mats st)) (mkAState ms' (as_handles ast)).
Proof.
  intros st ast h' ms' [H1 H2] He Hr Hh. split; [exact Hh|]. cbn. eapply mats_rel_mono; eauto.
Qed.

(** A new matrix. *)
Lemma state_rel_new : forall st ast h' b d k s room f, state_rel st ast ->
  only_allocates (st_heap st) h' -> length h' = S (length (st_heap st)) ->
  base_valid h' b -> bm_layout b = kind_layout k d -> dim (kind_layout k d) = d ->
  mat_size (@MBase T b) = s -> container_is_mut (bm_data b) = true ->
  c_region (bm_data b) = mkRegion (length (st_heap st)) 0 room ->
  (fst s = Fixed1 -> fst d = 1) /\ (snd s = Fixed1 -> snd d = 1) ->
  (s = (Dynamic, Dynamic) -> k <> KColumnVector) ->
  (forall p, held k d p -> base_entry h' b p = Some (f p)) ->
  state_rel (mkState h' (st_mats st ++ [MBase b])) (fst (@new_matrix_in T St ast d k s room f)).
Proof.
  intros st ast h' b d k s room f H Ho Hl Hv Hlay Hd Hs Hm Ha Hf Hdyn Hval.
  pose proof H as [[Hlen Hh] Hm2]. unfold new_matrix_in. cbn [fst].
  split; cbn [st_heap st_mats as_matrices as_handles].
  - apply heap_rel_new with (h := st_heap st); auto; [split; auto|].
    intros p Hp. rewrite <- (Hval p Hp). unfold base_entry, entry_cell, cell_of_region.
    cbn [fst snd]. rewrite Ha, Hlay. cbn [r_alloc r_lo]. rewrite N.add_0_l. reflexivity.
  - apply Forall2_app.
    + eapply mats_rel_mono; [|apply same_roots_app|exact Hm2].
      apply only_allocates_extends. exact Ho.
    + constructor; [|constructor]. cbn [matrix_rel]. apply window_rel_new; auto. congruence.
Qed.

(** What the constructors establish. *)
Lemma fresh_state : forall st ast h' b d k s room, state_rel st ast ->
  fresh_zeros (st_heap st) h' b -> h' = st_heap st ++ [repeat szero (N.to_nat room)] ->
  c_region (bm_data b) = mkRegion (length (st_heap st)) 0 room ->
  bm_layout b = kind_layout k d -> dim (kind_layout k d) = d ->
  mat_size (@MBase T b) = s ->
  (fst s = Fixed1 -> fst d = 1) /\ (snd s = Fixed1 -> snd d = 1) ->
  (s = (Dynamic, Dynamic) -> k <> KColumnVector) ->
  state_rel (mkState h' (st_mats st ++ [MBase b])) (fst (@new_matrix_in T St ast d k s room (fun _ => szero))).
Proof.
  intros st ast h' b d k s room H (Ho & Hv & Ha & Hm & Hz) Eh Hr Hlay Hd Hs Hf Hdyn.
  apply state_rel_new; auto.
  - rewrite Eh, app_length. cbn. lia.
  - intros p Hp. apply Hz. apply stored_held. rewrite Hlay, Hd.
    destruct k; exact Hp.
Qed.

Lemma allocate_new : forall ast d k s f, count k d * Npos ssize <= isize_max ->
  @allocate T SC St ast d k s f = new_matrix ast d k s f.
Proof. intros ast d k s f H. unfold allocate. apply N.leb_le in H. rewrite H. reflexivity. Qed.

Lemma allocate_panic : forall ast d k s f, isize_max < count k d * Npos ssize ->
  @allocate T SC St ast d k s f = panic ast.
Proof. intros ast d k s f H. unfold allocate. apply N.leb_gt in H. rewrite H. reflexivity. Qed.

Lemma simulated_panic : forall st ast o r, state_rel st ast ->
  exec kern Checked st o = Some Panic -> r = astep kern ast o -> r = panic ast ->
  simulated st ast o.
Proof.
  intros st ast o r H E -> E'. exists st. unfold step. rewrite E, E'. split; [reflexivity|exact H].
Qed.

Lemma simulated_skip : forall st ast o, state_rel st ast ->
  exec kern Checked st o = None -> astep kern ast o = skip ast -> simulated st ast o.
Proof.
  intros st ast o H E E'. exists st. unfold step. rewrite E, E'. split; [reflexivity|exact H].
Qed.

Lemma simulated_ok : forall st ast o st' r ast', exec kern Checked st o = Some (Ok (st', r)) ->
  astep kern ast o = (ast', r) -> state_rel st' ast' -> simulated st ast o.
Proof.
  intros st ast o st' r ast' E E' H. exists st'. unfold step. rewrite E, E'. split; [reflexivity|exact H].
Qed.

Lemma row_simulated : forall st ast o n, state_rel st ast ->
  exec kern Checked st o = Some (new1 st (row_vector_zeros_from_length Checked (st_heap st) n)) ->
  astep kern ast o = allocate ast (1, n) KRowVector (Fixed1, Dynamic) (fun _ => szero) ->
  simulated st ast o.
Proof.
  intros st ast o n H E E'.
  destruct (N.le_gt_cases (count KRowVector (1, n) * Npos ssize) isize_max) as [Hc|Hc].
  - rewrite allocate_new in E' by exact Hc. unfold new_matrix, count in *. cbn [fst snd] in *. rewrite N.mul_1_l in *.
    destruct (row_vector_ok Checked (st_heap st) n Hc) as (h' & b & Eb & Hl & Hs & Hf & Eh & Hr).
    rewrite Eb in E. eapply simulated_ok; [exact E|exact E'|].
    apply (fresh_state st ast h' b (1, n) KRowVector); auto.
    + split; [reflexivity|discriminate].
    + discriminate.
  - rewrite allocate_panic in E' by exact Hc. unfold count in Hc. cbn [fst snd] in Hc. rewrite N.mul_1_l in Hc.
    destruct (vector_panic Checked (st_heap st) n Hc) as [Ep _]. rewrite Ep in E.
    eapply simulated_panic; eauto.
Qed.

Lemma column_simulated : forall st ast o n, state_rel st ast ->
  exec kern Checked st o = Some (new1 st (column_vector_zeros_from_length Checked (st_heap st) n)) ->
  astep kern ast o = allocate ast (n, 1) KColumnVector (Dynamic, Fixed1) (fun _ => szero) ->
  simulated st ast o.
Proof.
  intros st ast o n H E E'.
  destruct (N.le_gt_cases (count KColumnVector (n, 1) * Npos ssize) isize_max) as [Hc|Hc].
  - rewrite allocate_new in E' by exact Hc. unfold new_matrix, count in *. cbn [fst snd] in *. rewrite N.mul_1_r in *.
    destruct (column_vector_ok Checked (st_heap st) n Hc) as (h' & b & Eb & Hl & Hs & Hf & Eh & Hr).
    rewrite Eb in E. eapply simulated_ok; [exact E|exact E'|].
    apply (fresh_state st ast h' b (n, 1) KColumnVector); auto.
    + split; [discriminate|reflexivity].
    + discriminate.
  - rewrite allocate_panic in E' by exact Hc. unfold count in Hc. cbn [fst snd] in Hc. rewrite N.mul_1_r in Hc.
    destruct (vector_panic Checked (st_heap st) n Hc) as [_ Ep]. rewrite Ep in E.
    eapply simulated_panic; eauto.
Qed.

Lemma from_dimension_kind : forall k d, k <> KColumnVector -> 
  from_dimension k d = if kind_fits k d then Ok (kind_layout k d) else Panic.
Proof.
  intros k [r c] Hk. destruct k; cbn [from_dimension kind_fits kind_layout fst snd]; try reflexivity; try congruence.
  - unfold assert_. destruct (r =? 1); reflexivity.
  - unfold assert_. destruct (r =? c); reflexivity.
Qed.

Lemma kind_fits_dim : forall k d, kind_fits k d = true -> dim (kind_layout k d) = d.
Proof.
  intros k [r c] H. destruct k; cbn in *; try reflexivity; apply N.eqb_eq in H; subst; reflexivity.
Qed.

Lemma kind_layout_count : forall k d, dim (kind_layout k d) = d -> entry_count (kind_layout k d) = count k d.
Proof. intros k d H. rewrite kind_count, H. destruct k; reflexivity. Qed.

Lemma zeros_simulated : forall st ast o k d, state_rel st ast -> k <> KColumnVector ->
  exec kern Checked st o = Some (new1 st (zeros_from_dim Checked (st_heap st) k (fst d) (snd d))) ->
  astep kern ast o = demand ast (kind_fits k d) (allocate ast d k (Dynamic, Dynamic) (fun _ => szero)) ->
  simulated st ast o.
Proof.
  intros st ast o k d H Hk E E'.
  pose proof (from_dimension_kind k d Hk) as Ek. rewrite (surjective_pairing d) in Ek at 1.
  destruct (kind_fits k d) eqn:Ef.
  2:{ unfold zeros_from_dim in E. rewrite Ek in E. eapply simulated_panic; [exact H|exact E|symmetry; exact E'|reflexivity]. }
  pose proof (kind_fits_dim k d Ef) as Hd. pose proof (kind_layout_count k d Hd) as Ec. cbn [demand] in E'.
  destruct (N.le_gt_cases (count k d * Npos ssize) isize_max) as [Hc|Hc].
  - rewrite allocate_new in E' by exact Hc. unfold new_matrix in E'. rewrite <- Ec in Hc.
    destruct (zeros_ok Checked (st_heap st) k (fst d) (snd d) _ Ek Hc)
      as (h' & b & Eb & Hl & Hrs & Hcs & Hlen & Hf & Eh & Hr).
    rewrite Eb in E. rewrite Ec in *. eapply simulated_ok; [exact E|exact E'|].
    apply (fresh_state st ast h' b d k); auto.
    + cbn. congruence.
    + split; discriminate.
  - rewrite allocate_panic in E' by exact Hc. rewrite <- Ec in Hc.
    rewrite (zeros_panic (st_heap st) k (fst d) (snd d) _ Ek Hc) in E.
    eapply simulated_panic; eauto.
Qed.

End AbstractFacts.
